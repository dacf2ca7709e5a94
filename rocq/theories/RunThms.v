(** Property C62: whole events. *)
From Coq Require Import List ZArith Reals Bool Lia Lra Psatz.
From Verif Require Import Base Pdg PdgThms React Kin KinSpec KinProofs KinThms Sample SampleProofs SampleThms NucReact NucSpec NucProofs NucThms NucEventThms
  Mass MassThms Decay DecaySpec DecayProofs CascadeThms DeexSpec DeexProofs DeexThms Rot RotSpec RotProofs RotThms Target Gen GenThms Run.
From Verif Require XReal Source SourceThms.
Import ListNotations.
Open Scope R_scope.

(** ** Vocabulary *)

(** A reaction as the constructors make it: a process on a nuclide, no negative masses,
    strengths or correction factors; or an electron target. *)
Definition mode_ok (m : mode) : Prop :=
  match m with
  | MNuc n fermi =>
      masses_ok n /\ 0 < n_mdgs n /\ Forall (fun x => 0 <= me_str x) (n_mes n) /\ factor_nonneg n fermi /\
      exists pt Zb Ab l, nuclide Zb Ab /\ nuclear_reactions pt (nucleus_pid Zb Ab) = Ok l /\ In (n_r n) l
  | MEl l atom =>
      exists mass_of a Zn, new_electron_reaction mass_of a Zn = Ok l /\ (0 <= Zn)%Z /\ (forall p, 0 <= mass_of p) /\ 0 < mass_of ELECTRON
  end.

(** Momentum, energy, charge and nucleons balance and every particle is on its mass shell;
    protons balance against the charge of the leptons. *)
Definition balanced (ev : kevent) : Prop :=
  same_p4 (initial_parts ev) (final_parts ev) /\
  zsum chg (initial_parts ev) = zsum chg (final_parts ev) /\
  zsum nucleons (initial_parts ev) = zsum nucleons (final_parts ev) /\
  (chg (e_projectile ev) + protons (e_target ev) = chg (e_ejectile ev) + zsum protons (e_residue ev :: e_others ev))%Z /\
  Forall on_shell (initial_parts ev ++ final_parts ev).

(** The atom a reaction happens on: that of the nucleus, or the one whose electrons are the
    target. *)
Definition atom_of (m : mode) : Z := match m with MNuc n _ => r_b (n_r n) | MEl _ atom => atom end.

(** Nothing was emitted, or no more than a nucleus with this code holds. *)
Definition fits (d : Z) (l : list part) : Prop :=
  l = [] \/ (zsum protons l <= particle_Z d)%Z /\ (zsum neutrons l <= particle_A d - particle_Z d)%Z /\ (zsum nucleons l < particle_A d)%Z.

Definition good_run (d : run_draws) : Prop :=
  0 < q_max d /\ 0 < q_rx d <= 1 /\ (forall k, 0 <= fst (q_E d k) <= 1 /\ 0 < snd (q_E d k) <= 1) /\
  good_draws (q_ev d) /\ hf_draws (q_hf d) /\ cascade_draws (q_cd d) /\ -1 <= q_ct d <= 1.

Definition good_uop (op : uop) : Prop := match op with UEvent d _ => good_run d | _ => True end.

(** The reactions asked for by the calls. *)
Definition want_modes (ms : list mode) (op : uop) : list mode :=
  match op with UAdd (Some m) => ms ++ [m] | UClear => [] | _ => ms end.

(** ** The prompt event *)

Lemma residue_nuclide pt Zb Ab d qd : nuclide Zb Ab -> residue pt (nucleus_pid Zb Ab) = Ok (d, qd) ->
  exists Zn A, nuclide Zn A /\ d = nucleus_pid Zn A /\ (qd <= Zn)%Z.
Proof.
  intros HN H. destruct (nuclide_decodes Zb Ab HN) as [E1 E2]. unfold residue in H. cbv zeta in H. rewrite E1, E2 in H. destruct HN as [H1 H2]. destruct pt.
  - destruct (Z.leb_spec (Ab - Zb) 0); [discriminate|]. injection H as <- <-. exists (Zb + 1)%Z, Ab. unfold nuclide. repeat split; lia.
  - destruct (Z.leb_spec Zb 0); [discriminate|]. injection H as <- <-. exists (Zb - 1)%Z, Ab. unfold nuclide. repeat split; lia.
  - injection H as <- <-. exists Zb, Ab. unfold nuclide. repeat split; lia.
  - discriminate.
Qed.

Lemma reaction_residue pt b l r : nuclear_reactions pt b = Ok l -> In r l -> residue pt b = Ok (r_d r, r_qd r).
Proof.
  unfold nuclear_reactions. destruct (residue pt b) as [[d qd]|]; cbn [bind]; [|discriminate]. intros H HI. apply map_res_in in H.
  revert HI. induction H as [|a x la lx Hx _ IH]; intros [].
  - subst x. destruct (ejectile a pt) as [c|]; cbn [bind] in Hx; [|discriminate]. unfold nuclear_reaction in Hx.
    repeat (match type of Hx with bind ?e _ = _ => destruct e; cbn [bind] in Hx; [|discriminate] end). injection Hx as <-. reflexivity.
  - apply IH. assumption.
Qed.

Definition prompt_ok (m : mode) (pdg : Z) (E : R) (ev : kevent) : Prop :=
  balanced ev /\ e_others ev = [] /\ map pid (initial_parts ev ++ final_parts ev) = [r_a (mode_reaction m); r_b (mode_reaction m); r_c (mode_reaction m); r_d (mode_reaction m)] /\
  pdg = r_a (mode_reaction m) /\ en (e_projectile ev) = E + mass (e_projectile ev) /\
  (e_Ex ev = 0 \/ is_nucleus (e_residue ev)).

Lemma make_event_proj k ids qs KEa pc ct phi Ec Ed Ex J P ev : make_event_object k ids qs KEa pc ct phi Ec Ed Ex J P = Ok ev ->
  en (e_projectile ev) = KEa + mass (e_projectile ev) /\ e_others ev = [].
Proof.
  unfold make_event_object. destruct ids as [[[ia ib] ic] id], qs as [[[qa qb] qc] qd]. cbv zeta.
  destruct (boost _ _ _ _) as [c'|]; cbn [bind]; [|discriminate]. destruct (boost _ _ _ _) as [d'|]; cbn [bind]; [|discriminate].
  intros H. injection H as <-. split; reflexivity.
Qed.

Lemma prompt_spec v gs m pdg E d fuel ev : mode_ok m -> good_draws d -> mode_event v gs m pdg E d fuel = Ok ev -> prompt_ok m pdg E ev.
Proof.
  destruct m as [n fermi|l atom]; intros HM Hd H; cbn [mode_event mode_ok mode_reaction] in *.
  - destruct HM as (Hm & Hg & _ & _ & pt & Zb & Ab & rs & HN & HR & HI).
    destruct (C45_nuclear_event _ _ _ _ _ _ _ _ _ Hm Hd H) as (P4 & S1 & S2 & Hp & Hq & Ea & Een & me & Hme & Hac & Hex & Hmass).
    destruct (create_inv _ _ _ _ _ _ _ _ _ H) as (_ & _ & _ & ws & me' & s & Ec & pc & Ed & ct & g & J & P & _ & _ & _ & _ & EK).
    cbv zeta in EK. destruct EK as (_ & _ & _ & _ & EM). destruct (make_event_proj _ _ _ _ _ _ _ _ _ _ _ _ _ EM) as [Epr Eoth].
    pose proof (C24_nuclear _ _ _ HR) as [_ C24]. rewrite Forall_forall in C24. destruct (C24 _ HI) as (Hb & Hqb & (K1 & K2 & _) & K3).
    unfold final_parts, initial_parts in *. rewrite Eoth in *. cbn [app map] in Hp, Hq, Hmass. injection Hp as P1 P2 P3 P4'. injection Hq as Q1 Q2 Q3 Q4. injection Hmass as M1 M2 M3 M4.
    split; [|split; [exact Eoth|split; [unfold initial_parts, final_parts; rewrite Eoth; cbn [app map mode_reaction l_r]; congruence|split; [exact Ea|split; [exact Epr|right]]]]].
    + unfold balanced, initial_parts, final_parts. rewrite Eoth. split; [exact P4|]. cbn [zsum fold_right]. unfold nucleons, protons. rewrite P1, P2, P3, P4', Q1, Q2, Q3, Q4.
      split; [lia|]. split; [lia|]. split; [lia|]. apply Forall_app. split; assumption.
    + destruct (residue_nuclide _ _ _ _ _ HN (reaction_residue _ _ _ _ HR HI)) as (Zn & A & N1 & N2 & N3).
      exists Zn, A. split; [exact N1|]. split; [congruence|]. split; [congruence|]. split; [apply Forall_inv_tail, Forall_inv in S2; exact S2|].
      rewrite M4. assert (0 <= me_energy me) by (destruct Hm as (_ & _ & _ & _ & Hm); rewrite Forall_forall in Hm; apply Hm; exact Hme). lra.
  - destruct HM as (mass_of & a & Zn & HL & HZ & HP & HE). unfold new_electron_reaction in HL.
    destruct (electron_reaction a) as [r|] eqn:ER; cbn [bind] in HL; [|discriminate]. destruct (couplings a) as [[g1 g2]|]; cbn [bind] in HL; [|discriminate]. injection HL as <-.
    assert (RB : r_b r = ELECTRON /\ r_d r = ELECTRON /\ r_c r = r_a r /\ r_qb r = r_qd r /\ r_qc r = r_qa r).
    { unfold electron_reaction in ER. destruct (ejectile a NuElectronElastic) as [c|] eqn:EJ; cbn [bind] in ER; [|discriminate].
      assert (c = a) by (unfold ejectile in EJ; destruct (existsb _ _); [congruence|discriminate]). subst c.
      destruct (particle_charge a); cbn [bind] in ER; [|discriminate]. destruct (particle_charge ELECTRON); cbn [bind] in ER; [|discriminate].
      injection ER as <-. repeat split; reflexivity. }
    destruct RB as (RB & RD & RC & RQ & RQ'). cbn [l_r l_k].
    assert (KE : 0 <= E).
    { unfold el_create in H. cbn [l_r l_k] in H. destruct (negb _) in H; [discriminate|]. unfold el_threshold in H. cbn [l_k k_ma k_mb k_mc k_md] in H.
      destruct (Rlt_dec E _) as [|L] in H; [discriminate|]. apply Rnot_lt_le in L. rewrite RB, RD, RC in L. unfold threshold in L. unfold Rminus in L. rewrite Rplus_opp_r in L. unfold Rdiv in L. lra. }
    pose proof H as H'. unfold el_create in H'. cbn [l_r l_k] in H'. destruct (negb _) in H'; [discriminate|]. destruct (Rlt_dec _ _) in H'; [discriminate|].
    destruct (two_two_scatter _ _) as [[[s Ec] pc] Ed]. destruct (rejection_sample _ _ _ _ _ _ _ _) as [[ct mm]|]; cbn [bind] in H'; [|discriminate].
    destruct (make_event_proj _ _ _ _ _ _ _ _ _ _ _ _ _ H') as [Epr Eoth]. clear H'.
    assert (A2 : 0 < mass_of (r_b r)) by (rewrite RB; exact HE).
    destruct (C45_electron_event (mkel r (mkmass (mass_of (r_a r)) (mass_of (r_b r)) (mass_of (r_c r)) (mass_of (r_d r))) g1 g2 Zn) pdg E d fuel ev
      (HP _) A2 (HP _) (HP _) KE Hd H) as (P4 & S1 & S2 & Hp & Hq & _ & Ea & Hx & _).
    cbn [l_r] in *. unfold final_parts, initial_parts in *. rewrite Eoth in *. cbn [app map] in Hp, Hq. injection Hp as P1 P2 P3 P4'. injection Hq as Q1 Q2 Q3 Q4.
    split; [|split; [exact Eoth|split; [unfold initial_parts, final_parts; rewrite Eoth; cbn [app map mode_reaction l_r]; congruence|split; [exact Ea|split; [exact Epr|left; exact Hx]]]]].
    unfold balanced, initial_parts, final_parts. rewrite Eoth. split; [exact P4|]. cbn [zsum fold_right]. unfold nucleons, protons. rewrite P1, P2, P3, P4', Q1, Q2, Q3, Q4, RB, RD, RC.
    split; [lia|]. split; [lia|]. split; [lia|]. apply Forall_app. split; assumption.
Qed.

(** ** The whole event before rotation *)

Lemma same_p4_trans a b c : same_p4 a b -> same_p4 b c -> same_p4 a c.
Proof. unfold same_p4. intros (A & B & C & D) (A' & B' & C' & D'). repeat split; congruence. Qed.

Definition made_by (m : mode) (pdg : Z) (E : R) (ev : kevent) : Prop :=
  pdg = r_a (mode_reaction m) /\ pid (e_projectile ev) = r_a (mode_reaction m) /\ pid (e_target ev) = r_b (mode_reaction m) /\ pid (e_ejectile ev) = r_c (mode_reaction m) /\
  en (e_projectile ev) = E + mass (e_projectile ev) /\ (fits (r_d (mode_reaction m)) (e_others ev) -> balanced ev).

Lemma prompt_made m pdg E ev : prompt_ok m pdg E ev -> made_by m pdg E ev /\ pid (e_residue ev) = r_d (mode_reaction m).
Proof.
  intros (B & O & P & Ea & Ee & _). unfold initial_parts, final_parts in P. rewrite O in P. cbn [app map] in P. injection P as P1 P2 P3 P4.
  unfold made_by. auto 10.
Qed.

Lemma full_spec v gs deex m pdg E d fuel ev : env_ok v -> mode_ok m -> good_run d -> full_event v gs deex m pdg E d fuel = Ok ev -> made_by m pdg E ev.
Proof.
  intros Hv HM (_ & _ & _ & Hd & Hh & Hc & _) H. unfold full_event in H. destruct (mode_event v gs m pdg E (q_ev d) fuel) as [ev0|] eqn:E0; cbn [bind] in H; [|discriminate].
  pose proof (prompt_spec _ _ _ _ _ _ _ _ HM Hd E0) as HP. destruct (prompt_made _ _ _ _ HP) as [HB HR]. destruct HP as (B & O & _ & _ & _ & HX).
  destruct deex; [|injection H as <-; exact HB]. destruct HX as [HX|HX].
  { rewrite (proj1 (C33_trivial v ev0 (q_hf d) (q_cd d) fuel) HX) in H. injection H as <-. exact HB. }
  destruct (C32_conserves _ _ _ _ _ _ H Hv Hh Hc HX) as (new & N1 & N2 & N3 & N4 & _ & _ & _ & _ & N5). rewrite O in N1. cbn [app] in N1.
  destruct HB as (B1 & B2 & B3 & B4 & B5 & _). unfold made_by. rewrite N2, N3, N4. split; [exact B1|]. split; [exact B2|]. split; [exact B3|]. split; [exact B4|]. split; [exact B5|].
  intros HF. rewrite N1 in HF. destruct N5 as (C1 & C2 & C3 & C4 & C5 & _).
  { unfold contains, neutrons, nucleons, protons. rewrite HR. destruct HF as [->|HF]; [|exact HF]. cbn [zsum fold_right].
    destruct HX as (Zn & A & HN & Hp & _). destruct (nuclide_decodes Zn A HN) as [D1 D2]. rewrite <- HR, Hp, D1, D2. destruct HN. lia. }
  destruct B as (P1 & P2 & P3 & P4 & P5). unfold balanced, initial_parts. rewrite N2, N3, N4. fold (initial_parts ev0).
  split; [exact (same_p4_trans _ _ _ P1 C1)|]. split; [congruence|]. split; [congruence|]. split.
  - unfold final_parts in C3. cbn [zsum fold_right] in C3, P4 |- *. rewrite N4 in C3. lia.
  - apply Forall_app in P5. destruct P5 as [P5 P6]. apply Forall_app. split; [exact P5|]. unfold final_parts. rewrite N4, N1. constructor; [exact (Forall_inv P6)|exact C5].
Qed.

(** ** Rotation *)

Lemma zsum_map f g l : (forall p, f (g p) = f p) -> zsum f (map g l) = zsum f l.
Proof. intros H. induction l as [|p l IH]; cbn [map zsum fold_right]; [reflexivity|]. unfold zsum in IH. rewrite H, IH. reflexivity. Qed.

Lemma rotated_made m pdg E mat ev : (forall a b, dot (apply_mat mat a) (apply_mat mat b) = dot a b) ->
  (same_p4 (initial_parts ev) (final_parts ev) -> same_p4 (initial_parts (rotate_event mat ev)) (final_parts (rotate_event mat ev))) ->
  made_by m pdg E ev -> made_by m pdg E (rotate_event mat ev).
Proof.
  intros HD HP (B1 & B2 & B3 & B4 & B5 & B6). unfold made_by. cbn [rotate_event e_projectile e_target e_ejectile e_others].
  assert (HI : forall p, pid (rotate_part mat p) = pid p) by reflexivity. assert (HC : forall p, chg (rotate_part mat p) = chg p) by reflexivity.
  split; [exact B1|]. split; [exact B2|]. split; [exact B3|]. split; [exact B4|]. split; [exact B5|]. intros HF.
  assert (HF' : fits (r_d (mode_reaction m)) (e_others ev)).
  { destruct HF as [HF|(F1 & F2 & F3)]; [left; destruct (e_others ev); [reflexivity|discriminate]|right].
    rewrite (zsum_map protons) in F1 by reflexivity. rewrite (zsum_map neutrons) in F2 by reflexivity. rewrite (zsum_map nucleons) in F3 by reflexivity. auto. }
  destruct (B6 HF') as (P1 & P2 & P3 & P4 & P5). split; [exact (HP P1)|].
  assert (EI : initial_parts (rotate_event mat ev) = map (rotate_part mat) (initial_parts ev)) by reflexivity.
  assert (EF : final_parts (rotate_event mat ev) = map (rotate_part mat) (final_parts ev)) by reflexivity.
  rewrite EI, EF. rewrite !zsum_map by reflexivity. split; [exact P2|]. split; [exact P3|]. split.
  - cbn [rotate_event e_projectile e_target e_ejectile e_others e_residue]. change (rotate_part mat (e_residue ev) :: map (rotate_part mat) (e_others ev)) with (map (rotate_part mat) (e_residue ev :: e_others ev)).
    rewrite zsum_map by reflexivity. exact P4.
  - rewrite <- map_app. apply Forall_map. revert P5. apply Forall_impl. intros p (Hm & He & Hs). unfold on_shell, rotate_part. cbn [mass en px py pz].
    split; [exact Hm|]. split; [exact He|]. pose proof (HD (momentum p) (momentum p)) as D. set (r := apply_mat mat (momentum p)) in *. unfold dot, momentum in D. cbn [vx vy vz] in D. lra.
Qed.

Lemma rotation_made rops ct phi m pdg E ev : Forall good_draw rops -> -1 <= ct <= 1 -> made_by m pdg E ev ->
  let o := rot_run default_rotator rops in
  exists o' ev', process_event o ct phi ev = Ok (o', ev') /\ made_by m pdg E ev' /\ e_Ex ev' = e_Ex ev /\
    momentum (e_projectile ev') = scale (momentum_magnitude (e_projectile ev)) (o_dir o') /\
    (0 < momentum_magnitude (e_projectile ev) -> dot (o_dir o') (o_dir o') = 1 /\ o_dir o' = (if o_random o then isotropic ct phi else o_dir o)).
Proof.
  intros HG Hc HB. cbv zeta. destruct (C41_history rops ct phi ev HG Hc) as (o' & ev' & EP & H0 & H1). exists o', ev'. split; [exact EP|].
  pose proof (C41_conserves rops ct phi ev o' ev' HG Hc EP) as HC.
  destruct (Rle_lt_dec (momentum_magnitude (e_projectile ev)) 0) as [L|L].
  - assert (Z0 : momentum_magnitude (e_projectile ev) = 0) by (pose proof (sqrt_pos (px (e_projectile ev) ^ 2 + py (e_projectile ev) ^ 2 + pz (e_projectile ev) ^ 2)); unfold momentum_magnitude in *; lra).
    rewrite (H0 Z0) in *. split; [exact HB|]. split; [reflexivity|]. split; [|intros; lra]. rewrite Z0. unfold momentum_magnitude in Z0. apply sqrt_eq_0 in Z0; [|nra].
    unfold momentum, scale. f_equal; nra.
  - destruct (H1 L) as (D1 & D2 & D3 & mat & D4 & _ & ->). split; [apply rotated_made; assumption|]. split; [reflexivity|]. split; [exact D1|]. intros _. split; assumption.
Qed.

(** ** Histories *)

Definition max_pos (g : gstate) : Prop := gn_default g = None /\ match gn_max g with Some m => 0 < m | None => True end.

Lemma rejection_grows f lo hi safety d fuel : 1 <= safety -> forall fmax turn x m, 0 < fmax -> rejection f lo hi fmax safety d turn fuel = Ok (x, m) -> 0 < m.
Proof.
  intros Hs. induction fuel as [|fuel IH]; intros fmax turn x m Hf H; cbn [rejection] in H; [discriminate|]. cbv zeta in H.
  assert (P : 0 < (if Rlt_dec fmax (f (uniform lo hi (fst (d turn)))) then f (uniform lo hi (fst (d turn))) * safety else fmax)) by (clear H; destruct (Rlt_dec _ _); [apply Rmult_lt_0_compat; lra|exact Hf]).
  destruct (Rlt_dec (f _) (uniform _ _ _)); [exact (IH _ _ _ _ P H)|]. injection H as _ <-. exact P.
Qed.

Lemma normalize_max g : slots g -> gn_default g = None -> gn_hold g = false -> max_pos (fst (normalize g)).
Proof.
  intros H HD HH. unfold normalize. rewrite HH. rewrite E_pdf_ok by exact H. cbv zeta. cbn [fst]. unfold max_pos, set_norm, set_xs, set_max. cbn [gn_default gn_max]. rewrite HD. auto.
Qed.

Definition good_gop (o : gop) : Prop := match o with OSample sf mx _ _ _ => 1 <= sf /\ 0 < mx | _ => True end.

Lemma step_max g o : slots g -> gn_hold g = false -> good_gop o -> max_pos g -> max_pos (gstep g o).
Proof.
  intros H HH HO HM. pose proof HM as [HD _]. destruct o as [[r|]| |[s|]|[t|]|w|E|sf mx d u fuel]; cbn [gstep]; try exact HM.
  - unfold add_reaction. apply normalize_max; [unfold slots in *; cbn [gn_xs gn_rx]; rewrite !app_length, H; reflexivity|exact HD|exact HH].
  - unfold set_source. cbv zeta. cbn [gn_rx]. destruct (gn_rx g) eqn:ER; [exact HM|]. rewrite <- ER. apply normalize_max; assumption.
  - unfold set_target. cbv zeta. cbn [gn_rx]. destruct (gn_rx g) eqn:ER; [exact HM|]. rewrite <- ER. apply normalize_max; assumption.
  - destruct (E_pdf g E) as [[xs w]|]; exact HM.
  - destruct (sample_reaction g sf mx d u fuel) as [[[g' E] i]|] eqn:ES; [|exact HM]. unfold sample_reaction in ES. destruct (gn_rx g) eqn:ER; [discriminate|].
    destruct (rejection_sample _ _ _ _ _ _ _ _) as [[E0 m]|] eqn:RS; cbn [bind] in ES; [|discriminate]. rewrite (E_pdf_ok g E0 H) in ES. cbn [bind] in ES. cbv zeta in ES.
    destruct (Nat.ltb _ _); [|discriminate]. injection ES as <- _ _. unfold max_pos, set_max, set_xs. cbn [gn_default gn_max]. split; [exact HD|].
    destruct HO as [O1 O2]. unfold rejection_sample in RS. refine (rejection_grows _ _ _ _ _ _ O1 _ _ _ _ _ RS). destruct HM as [_ HM]. destruct (gn_max g); [exact HM|apply Rmult_lt_0_compat; lra].
Qed.

Lemma default_safety_ok : 1 <= default_safety.
Proof. unfold default_safety. lra. Qed.

(** Whatever was called before, the members are as if the bookkeeping calls and the rotator
    calls had been made one after the other. *)
Lemma history v gs ops : Forall good_uop ops ->
  exists gops rops, let z := fold_left (ustep v gs) ops fresh_generator in
    z_state z = fold_left gstep gops new_generator /\ z_rot z = rot_run default_rotator rops /\ Forall good_draw rops /\
    z_modes z = fold_left want_modes ops [] /\ gn_rx (z_state z) = map mode_rxn (z_modes z) /\ gn_hold (z_state z) = false /\ max_pos (z_state z).
Proof.
  cbv zeta. induction ops as [|op ops IH] using rev_ind; intros HG.
  { exists [], []. cbn. repeat split; constructor. }
  apply Forall_app in HG. destruct HG as [HG1 HG2]. apply Forall_inv in HG2. destruct (IH HG1) as (gops & rops & I1 & I2 & I3 & I4 & I5 & I6 & I7). clear IH.
  rewrite !fold_left_app. cbn [fold_left]. set (z := fold_left (ustep v gs) ops fresh_generator) in *. rewrite <- I4.
  assert (SL : slots (z_state z)) by (rewrite I1; apply reach_slots).
  assert (G : forall o rops', good_gop o -> Forall good_draw rops' -> forall z', z_state z' = gstep (z_state z) o -> z_rot z' = rot_run (z_rot z) rops' ->
     z_modes z' = want_modes (z_modes z) op -> want_rx (map mode_rxn (z_modes z)) o = map mode_rxn (z_modes z') ->
     exists gops rops, z_state z' = fold_left gstep gops new_generator /\ z_rot z' = rot_run default_rotator rops /\ Forall good_draw rops /\
       z_modes z' = want_modes (z_modes z) op /\ gn_rx (z_state z') = map mode_rxn (z_modes z') /\ gn_hold (z_state z') = false /\ max_pos (z_state z')).
  { intros o rops' HO HR z' Z1 Z2 Z3 Z4. exists (gops ++ [o]), (rops ++ rops'). destruct (step_keeps (z_state z) o SL) as (K1 & K2 & _ & _ & _ & K6).
    split; [rewrite fold_left_app; cbn [fold_left]; rewrite <- I1; exact Z1|]. split; [unfold rot_run in *; rewrite fold_left_app, <- I2; exact Z2|].
    split; [apply Forall_app; split; assumption|]. split; [exact Z3|]. rewrite Z1. split; [rewrite K2, I5; exact Z4|]. split; [congruence|]. apply step_max; assumption. }
  assert (N : forall z', z_state z' = z_state z -> z_modes z' = z_modes z -> want_modes (z_modes z) op = z_modes z -> forall rops', Forall good_draw rops' -> z_rot z' = rot_run (z_rot z) rops' ->
     exists gops rops, z_state z' = fold_left gstep gops new_generator /\ z_rot z' = rot_run default_rotator rops /\ Forall good_draw rops /\
       z_modes z' = want_modes (z_modes z) op /\ gn_rx (z_state z') = map mode_rxn (z_modes z') /\ gn_hold (z_state z') = false /\ max_pos (z_state z')).
  { intros z' Z1 Z2 Z3 rops' HR Z4. exists gops, (rops ++ rops'). rewrite Z1, Z2, Z3. split; [exact I1|]. split; [unfold rot_run in *; rewrite fold_left_app, <- I2; exact Z4|].
    split; [apply Forall_app; split; assumption|]. auto. }
  destruct op as [[m|]| |s|t|w|dir|b|b|d fuel]; cbn [ustep].
  - apply (G (OAdd (Some (mode_rxn m))) []); cbn [z_state z_rot z_modes want_modes want_rx]; try reflexivity; try exact Logic.I; [constructor|]. rewrite map_app. reflexivity.
  - apply (N z eq_refl eq_refl eq_refl []); [constructor|reflexivity].
  - apply (G OClear []); cbn [z_state z_rot z_modes want_modes want_rx]; try reflexivity; try exact Logic.I. constructor.
  - apply (G (OSource s) []); cbn [z_state z_rot z_modes want_modes want_rx]; try reflexivity; try exact Logic.I. constructor.
  - apply (G (OTarget t) []); cbn [z_state z_rot z_modes want_modes want_rx]; try reflexivity; try exact Logic.I. constructor.
  - apply (G (OWeight w) []); cbn [z_state z_rot z_modes want_modes want_rx]; try reflexivity; try exact Logic.I. constructor.
  - destruct (set_direction dir (z_rot z)) as [o|] eqn:ES.
    + apply (N (mkgen (z_modes z) (z_state z) o (z_deex z)) eq_refl eq_refl eq_refl [SetDir dir]); [repeat constructor|]. cbn [z_rot rot_run fold_left rot_step]. rewrite ES. reflexivity.
    + apply (N z eq_refl eq_refl eq_refl []); [constructor|reflexivity].
  - apply (N (mkgen (z_modes z) (z_state z) (set_random b (z_rot z)) (z_deex z)) eq_refl eq_refl eq_refl [SetRandom b]); [repeat constructor|]. reflexivity.
  - apply (N (mkgen (z_modes z) (z_state z) (z_rot z) b) eq_refl eq_refl eq_refl []); [constructor|reflexivity].
  - destruct HG2 as (Q1 & Q2 & Q3 & Q4 & Q5 & Q6 & Q7).
    assert (GO : good_gop (OSample default_safety (q_max d) (q_E d) (q_rx d) fuel)) by (split; [apply default_safety_ok|exact Q1]).
    unfold create_event. destruct (sample_reaction (z_state z) _ _ _ _ _) as [[[g' E] i]|] eqn:ES.
    2:{ apply (N z eq_refl eq_refl eq_refl []); [constructor|reflexivity]. }
    assert (GS : g' = gstep (z_state z) (OSample default_safety (q_max d) (q_E d) (q_rx d) fuel)) by (cbn [gstep]; rewrite ES; reflexivity).
    assert (W1 : forall o', o' = z_rot z -> forall z', z' = mkgen (z_modes z) g' o' (z_deex z) -> exists gops rops, z_state z' = fold_left gstep gops new_generator /\ z_rot z' = rot_run default_rotator rops /\ Forall good_draw rops /\
       z_modes z' = want_modes (z_modes z) (UEvent d fuel) /\ gn_rx (z_state z') = map mode_rxn (z_modes z') /\ gn_hold (z_state z') = false /\ max_pos (z_state z')).
    { intros o' -> z' ->. apply (G (OSample default_safety (q_max d) (q_E d) (q_rx d) fuel) []); cbn [z_state z_rot z_modes want_modes want_rx]; try reflexivity; try assumption. constructor. }
    destruct (nth_error (z_modes z) i) as [m|]; [|eapply W1; reflexivity].
    destruct (full_event _ _ _ _ _ _ _ _) as [ev|]; [|eapply W1; reflexivity].
    destruct (process_event (z_rot z) (q_ct d) (q_phi d) ev) as [[o' ev']|] eqn:EP; [|eapply W1; reflexivity].
    apply (G (OSample default_safety (q_max d) (q_E d) (q_rx d) fuel) [Process (q_ct d) (q_phi d) ev]); cbn [fst z_state z_rot z_modes want_modes want_rx]; try reflexivity; try assumption.
    + constructor; [exact Q7|constructor].
    + unfold rot_run. cbn [fold_left rot_step]. rewrite EP. reflexivity.
Qed.

(** ** C62 *)

(** Every reaction the constructors make is one the bookkeeping theorems C34 and C35 speak
    about: no cross section for another projectile, none negative. *)
Theorem C62_sound m : mode_ok m -> sound (mode_rxn m).
Proof.
  destruct m as [n fermi|l atom]; intros HM; cbn [mode_ok mode_rxn] in *; split; cbn [x_proj x_xs].
  - intros pdg E N. rewrite (proj1 (C58_zero n fermi pdg E (or_introl N))). reflexivity.
  - intros pdg E. destruct HM as (Hm & _ & Hs & Hf & _). destruct (nuc_total_xs n fermi pdg E) as [t|] eqn:ET; [|lra]. exact (C58_nonneg _ _ _ _ _ Hm Hs Hf ET).
  - intros pdg E N. unfold el_total_xs. destruct (Z.eqb_spec pdg (r_a (l_r l))); [contradiction|]. reflexivity.
  - intros pdg E. destruct HM as (mass_of & a & Zn & HL & HZ & HP & HE). unfold new_electron_reaction in HL.
    destruct (electron_reaction a) as [r|] eqn:ER; cbn [bind] in HL; [|discriminate]. destruct (couplings a) as [[g1 g2]|]; cbn [bind] in HL; [|discriminate]. injection HL as <-.
    unfold el_total_xs. cbn [l_r l_k l_g1 l_g2 l_Z k_md k_mb k_ma k_mc]. destruct (negb _); [lra|]. destruct (Rlt_dec _ _) as [|L]; [lra|]. cbv zeta.
    match goal with |- context [?x / el_s ?l E] => assert (HR : 0 <= x / el_s l E); [|set (q := x / el_s l E) in *; clearbody q] end.
    { assert (RB : r_b r = ELECTRON /\ r_d r = ELECTRON /\ r_c r = r_a r).
      { unfold electron_reaction in ER. destruct (ejectile a NuElectronElastic) as [c|] eqn:EJ; cbn [bind] in ER; [|discriminate].
        assert (c = a) by (unfold ejectile in EJ; destruct (existsb _ _); [congruence|discriminate]). subst c.
        destruct (particle_charge a); cbn [bind] in ER; [|discriminate]. destruct (particle_charge ELECTRON); cbn [bind] in ER; [|discriminate].
        injection ER as <-. repeat split; reflexivity. }
      destruct RB as (RB & RD & RC). unfold el_threshold in L. cbn [l_k k_ma k_mb k_mc k_md] in L. rewrite RB, RD, RC in L. unfold threshold, Rminus in L. rewrite Rplus_opp_r in L. unfold Rdiv in L.
      unfold el_s. cbn [l_k k_ma k_mb]. rewrite RB. pose proof (HP (r_a r)) as PA. pose proof (HP (r_d r)) as PD. apply Rmult_le_pos; [nra|]. left. apply Rinv_0_lt_compat.
      assert (0 <= 2 * mass_of ELECTRON * E) by (apply Rmult_le_pos; lra). assert (0 < (mass_of (r_a r) + mass_of ELECTRON) ^ 2) by (apply pow_lt; lra). lra. }
    pose proof PI_RGT_0 as HPI. apply Rmult_le_pos; [|apply IZR_le; exact HZ]. apply Rmult_le_pos; [apply Rmult_le_pos; [left; apply Rdiv_lt_0_compat; lra|apply pow2_ge_0]|].
    replace (g1 ^ 2 + (g2 * g2 / 3 - g1 * g2) * q + g2 * g2 / 3 * (1 + q ^ 2)) with ((g1 - g2 * q / 2) ^ 2 + g2 ^ 2 * (q ^ 2 / 12 + q / 3 + 1 / 3)) by field.
    pose proof (pow2_ge_0 (g1 - g2 * q / 2)). pose proof (pow2_ge_0 g2). pose proof (pow2_ge_0 q). assert (0 <= g2 ^ 2 * (q ^ 2 / 12 + q / 3 + 1 / 3)) by (apply Rmult_le_pos; lra). lra.
Qed.
Print Assumptions C62_sound.

(** Whatever calls were made before, an event comes from a reaction that was added and not
    cleared, whose projectile is the source's, whose atom is in the target, at an energy in the
    range of the source where the flux and the cross section are positive. The projectile has
    that kinetic energy and moves in the direction set (or, for random directions, the one
    drawn). Energy, momentum, charge and nucleons balance and all particles are on their mass
    shells, whether or not the residue was de-excited, as long as it holds what it emits. *)
Theorem C62_event v gs ops d fuel z' ev : let z := fold_left (ustep v gs) ops fresh_generator in let src := gn_source (z_state z) in
  env_ok v -> Forall good_uop ops -> good_run d -> Forall mode_ok (z_modes z) ->
  good_target (gn_target (z_state z)) -> 0 < gn_norm (z_state z) -> (forall x, 0 <= ns_pdf src x) -> ns_min src <= ns_max src ->
  create_event v gs z d fuel = (z', Ok ev) ->
  z_modes z = fold_left want_modes ops [] /\
  exists m E, In m (z_modes z) /\ r_a (mode_reaction m) = ns_pid src /\ 0 < fraction (gn_target (z_state z)) (atom_of m) /\
    ns_min src <= E <= ns_max src /\ 0 < ns_pdf src E /\ 0 < x_xs (mode_rxn m) (ns_pid src) E /\
    pid (e_projectile ev) = ns_pid src /\ pid (e_target ev) = r_b (mode_reaction m) /\ pid (e_ejectile ev) = r_c (mode_reaction m) /\
    en (e_projectile ev) = E + mass (e_projectile ev) /\
    (0 < momentum_magnitude (e_projectile ev) ->
       momentum (e_projectile ev) = scale (momentum_magnitude (e_projectile ev)) (if o_random (z_rot z) then isotropic (q_ct d) (q_phi d) else o_dir (z_rot z))) /\
    (fits (r_d (mode_reaction m)) (e_others ev) -> balanced ev).
Proof.
  cbv zeta. intros Hv HG Hd HM HT HN HF Hl H. destruct (history v gs ops HG) as (gops & rops & I1 & I2 & I3 & I4 & I5 & I6 & I7). cbv zeta in *.
  set (z := fold_left (ustep v gs) ops fresh_generator) in *. split; [exact I4|].
  unfold create_event in H. destruct (sample_reaction (z_state z) _ _ _ _ _) as [[[g' E] i]|] eqn:ES; [|discriminate].
  pose proof Hd as (Q1 & Q2 & Q3 & Q4 & Q5 & Q6 & Q7).
  assert (HS : Forall sound (gn_rx (z_state z))) by (rewrite I5; apply Forall_map; revert HM; apply Forall_impl; apply C62_sound).
  assert (SRC : gn_source g' = gn_source (z_state z)).
  { assert (SL : slots (z_state z)) by (rewrite I1; apply reach_slots).
    destruct (step_keeps (z_state z) (OSample default_safety (q_max d) (q_E d) (q_rx d) fuel) SL) as (_ & _ & K & _). cbn [gstep] in K. rewrite ES in K. exact K. }
  pose proof (C34_sampled gops default_safety (q_max d) (q_E d) (q_rx d) fuel g' E i) as S. cbv zeta in S. rewrite <- I1 in S.
  destruct (S HS HT HN HF Hl default_safety_ok Q1 (proj2 I7) Q3 Q2 ES) as (S1 & S2 & r & S3 & S4 & S5 & S6). clear S.
  rewrite I5, nth_error_map in S3. destruct (nth_error (z_modes z) i) as [m|] eqn:EN; [|discriminate]. cbn [option_map] in S3. injection S3 as <-.
  destruct (full_event _ _ _ _ _ _ _ _) as [ev0|] eqn:EF; [|discriminate].
  assert (MO : mode_ok m) by (rewrite Forall_forall in HM; apply HM; apply nth_error_In in EN; exact EN).
  pose proof (full_spec _ _ _ _ _ _ _ _ _ Hv MO Hd EF) as HB.
  destruct (rotation_made rops (q_ct d) (q_phi d) m _ _ ev0 I3 Q7 HB) as (o' & ev' & EP & HB' & _ & HD1 & HD2). rewrite <- I2 in EP, HD2. rewrite EP in H. injection H as _ <-.
  destruct HB' as (B1 & B2 & B3 & B4 & B5 & B6). rewrite SRC in *.
  assert (PR : x_proj (mode_rxn m) = r_a (mode_reaction m)) by (destruct m; reflexivity).
  exists m, E. split; [apply nth_error_In in EN; exact EN|]. split; [congruence|]. split; [destruct m; exact S6|]. split; [exact S1|]. split; [exact S2|]. split; [rewrite <- S4; exact S5|].
  split; [congruence|]. split; [exact B3|]. split; [exact B4|]. split; [exact B5|]. split; [|exact B6].
  intros L.
  assert (MM : momentum_magnitude (e_projectile ev') = momentum_magnitude (e_projectile ev0)).
  { destruct (Rle_lt_dec (momentum_magnitude (e_projectile ev0)) 0) as [L'|L'].
    - assert (Z0 : momentum_magnitude (e_projectile ev0) = 0) by (pose proof (sqrt_pos (px (e_projectile ev0) ^ 2 + py (e_projectile ev0) ^ 2 + pz (e_projectile ev0) ^ 2)); unfold momentum_magnitude in *; lra).
      rewrite Z0 in *. exfalso. rewrite magnitude_norm, HD1 in L. unfold norm, dot, scale in L. cbn [vx vy vz] in L. rewrite !Rmult_0_l, !Rplus_0_l, sqrt_0 in L. lra.
    - destruct (HD2 L') as [U _]. rewrite magnitude_norm, HD1. unfold norm. replace (dot _ _) with (momentum_magnitude (e_projectile ev0) ^ 2 * dot (o_dir o') (o_dir o')) by (unfold dot, scale; cbn [vx vy vz]; ring).
      rewrite U, Rmult_1_r. apply sqrt_pow2. lra. }
  rewrite MM in L |- *. destruct (HD2 L) as [_ U]. rewrite HD1, U. reflexivity.
Qed.
Print Assumptions C62_event.

(** The same for given initial particles, whatever directions were asked for in earlier calls
    of this kind (the rotator is a static object shared by all generators): the event has the
    projectile, energy, atom and direction of this call. *)
Theorem C62_fixed v gs z rops pdg KEa atom dir d fuel o' ev :
  env_ok v -> good_run d -> Forall mode_ok (z_modes z) -> gn_rx (z_state z) = map mode_rxn (z_modes z) -> Forall good_draw rops ->
  create_event_for v gs z (rot_run default_rotator rops) pdg KEa atom dir d fuel = (o', Ok ev) ->
  dir <> vnull /\ (exists rops', o' = rot_run default_rotator rops' /\ Forall good_draw rops') /\
  exists m, In m (z_modes z) /\ r_a (mode_reaction m) = pdg /\ atom_of m = atom /\ 0 < x_xs (mode_rxn m) pdg KEa /\
    pid (e_projectile ev) = pdg /\ pid (e_target ev) = r_b (mode_reaction m) /\ pid (e_ejectile ev) = r_c (mode_reaction m) /\
    en (e_projectile ev) = KEa + mass (e_projectile ev) /\
    (0 < momentum_magnitude (e_projectile ev) -> o_random (rot_run default_rotator rops) = false ->
       momentum (e_projectile ev) = scale (momentum_magnitude (e_projectile ev)) (unit_of dir)) /\
    (fits (r_d (mode_reaction m)) (e_others ev) -> balanced ev).
Proof.
  intros Hv Hd HM HX HR H. set (o := rot_run default_rotator rops) in *. pose proof Hd as (Q1 & Q2 & Q3 & Q4 & Q5 & Q6 & Q7).
  unfold create_event_for in H. pose proof (C35_pick (z_state z) pdg KEa atom (q_rx d) ltac:(lra)) as P.
  destruct (pick_reaction (z_state z) pdg KEa atom (q_rx d)) as [i|]; [|discriminate]. destruct P as (r & P1 & P2 & P3 & P4).
  rewrite HX, nth_error_map in P1. destruct (nth_error (z_modes z) i) as [m|] eqn:EN; [|discriminate]. cbn [option_map] in P1. injection P1 as <-.
  destruct (full_event _ _ _ _ _ _ _ _) as [ev0|] eqn:EF; [|discriminate].
  assert (MO : mode_ok m) by (rewrite Forall_forall in HM; apply HM; apply nth_error_In in EN; exact EN).
  pose proof (full_spec _ _ _ _ _ _ _ _ _ Hv MO Hd EF) as HB.
  destruct (set_direction dir o) as [o1|] eqn:ED; [|discriminate].
  assert (ND : dir <> vnull) by (intros ->; unfold set_direction in ED; rewrite normalize_null in ED; discriminate). split; [exact ND|].
  assert (O1 : o1 = rot_run default_rotator (rops ++ [SetDir dir])) by (unfold rot_run; rewrite fold_left_app; cbn [fold_left rot_step]; fold (rot_run default_rotator rops); fold o; rewrite ED; reflexivity).
  assert (HR1 : Forall good_draw (rops ++ [SetDir dir])) by (apply Forall_app; split; [exact HR|repeat constructor]).
  destruct (rotation_made (rops ++ [SetDir dir]) (q_ct d) (q_phi d) m _ _ ev0 HR1 Q7 HB) as (o2 & ev' & EP & HB' & _ & HD1 & HD2). rewrite <- O1 in EP, HD2. rewrite EP in H. injection H as <- <-.
  split.
  { exists ((rops ++ [SetDir dir]) ++ [Process (q_ct d) (q_phi d) ev0]). split; [|apply Forall_app; split; [exact HR1|constructor; [exact Q7|constructor]]].
    unfold rot_run. rewrite fold_left_app. fold (rot_run default_rotator (rops ++ [SetDir dir])). rewrite <- O1. cbn [fold_left rot_step]. rewrite EP. reflexivity. }
  destruct HB' as (B1 & B2 & B3 & B4 & B5 & B6). assert (PR : x_proj (mode_rxn m) = r_a (mode_reaction m)) by (destruct m; reflexivity).
  exists m. split; [apply nth_error_In in EN; exact EN|]. split; [congruence|]. split; [destruct m; exact P3|]. split; [exact P4|]. split; [congruence|]. split; [exact B3|]. split; [exact B4|]. split; [exact B5|]. split; [|exact B6].
  intros L RN.
  assert (MM : momentum_magnitude (e_projectile ev') = momentum_magnitude (e_projectile ev0)).
  { destruct (Rle_lt_dec (momentum_magnitude (e_projectile ev0)) 0) as [L'|L'].
    - assert (Z0 : momentum_magnitude (e_projectile ev0) = 0) by (pose proof (sqrt_pos (px (e_projectile ev0) ^ 2 + py (e_projectile ev0) ^ 2 + pz (e_projectile ev0) ^ 2)); unfold momentum_magnitude in *; lra).
      rewrite Z0 in *. exfalso. rewrite magnitude_norm, HD1 in L. unfold norm, dot, scale in L. cbn [vx vy vz] in L. rewrite !Rmult_0_l, !Rplus_0_l, sqrt_0 in L. lra.
    - destruct (HD2 L') as [U _]. rewrite magnitude_norm, HD1. unfold norm. replace (dot _ _) with (momentum_magnitude (e_projectile ev0) ^ 2 * dot (o_dir o2) (o_dir o2)) by (unfold dot, scale; cbn [vx vy vz]; ring).
      rewrite U, Rmult_1_r. apply sqrt_pow2. lra. }
  rewrite MM in L |- *. destruct (HD2 L) as [_ U]. rewrite HD1, U. unfold set_direction in ED. rewrite normalize_ok in ED by exact ND. cbn [bind] in ED. injection ED as <-. cbn [o_random o_dir]. rewrite RN. reflexivity.
Qed.
Print Assumptions C62_fixed.

(** Spin and parity of the residue before it de-excites: those of the level populated, or for
    the continuum those that the target's ground state allows for the kind of transition. *)
Theorem C62_spin v gs n fermi pdg E d fuel ev : full_event v gs false (MNuc n fermi) pdg E d fuel = Ok ev ->
  exists tgs Pgs me, gs (r_b (n_r n)) = Ok (tgs, Pgs) /\ In me (n_mes n) /\ e_Ex ev = me_energy me /\
    match me_lev me with
    | Some (_, t, p) => e_twoJ ev = t /\ e_parity ev = p
    | None => (0 <= tgs)%Z -> e_parity ev = Pgs /\
        ((me_type me = 0%Z /\ e_twoJ ev = tgs) \/
         (me_type me = 1%Z /\ (Z.abs (tgs - 2) <= e_twoJ ev <= tgs + 2)%Z /\ Z.even (e_twoJ ev - tgs) = true /\ (tgs = 0%Z -> e_twoJ ev = 2%Z)))
    end.
Proof.
  unfold full_event. intros H. destruct (mode_event v gs (MNuc n fermi) pdg E (q_ev d) fuel) as [ev0|] eqn:E0; cbn [bind] in H; [|discriminate]. injection H as <-. cbn [mode_event] in E0.
  destruct (create_inv _ _ _ _ _ _ _ _ _ E0) as (_ & _ & _ & ws & me & s & Ec & pc & Ed & ct & g & J & P & _ & _ & _ & HN & EK).
  cbv zeta in EK. destruct EK as (_ & _ & EG & ES & EM). destruct g as [tgs Pgs]. exists tgs, Pgs, me. split; [exact EG|]. split; [apply nth_error_In in HN; exact HN|].
  assert (FX : e_Ex ev0 = me_energy me /\ e_twoJ ev0 = J /\ e_parity ev0 = P).
  { unfold make_event_object in EM. destruct (ids_of _) as [[[ia ib] ic] id], (charges_of _) as [[[qa qb] qc] qd]. cbv zeta in EM.
    destruct (boost _ _ _ _) as [c'|]; cbn [bind] in EM; [|discriminate]. destruct (boost _ _ _ _) as [d'|]; cbn [bind] in EM; [|discriminate]. injection EM as <-. auto. }
  destruct FX as (-> & -> & ->). split; [reflexivity|]. destruct (me_lev me) as [[[e t] p]|] eqn:EL.
  - unfold residue_spin in ES. rewrite EL in ES. injection ES as <- <-. auto.
  - intros Ht. pose proof (C60_selection _ _ _ _ _ _ _ Ht ES) as C. rewrite EL in C. destruct C as [C1 C2]. split; [exact C1|]. destruct C2 as [C2|(C2 & C3 & C4 & _ & C5)]; [left; exact C2|right; auto].
Qed.
Print Assumptions C62_spin.

(** Asking a nuclear reaction for a cross section does not throw, except perhaps in the two
    pure effective-momentum modes: so the zero used for that case in [mode_rxn] is not used. *)
Theorem C62_no_throw n fermi pdg E : n_mode n <> EMA -> n_mode n <> MEMA -> r_proc (n_r n) <> NuElectronElastic ->
  exists t, nuc_total_xs n fermi pdg E = Ok t /\ x_xs (mode_rxn (MNuc n fermi)) pdg E = t.
Proof.
  intros H1 H2 H3. assert (F : forall b, exists f, coulomb_factor n fermi b = Ok f).
  { intros b. unfold coulomb_factor. destruct (n_mode n); try contradiction; try (eexists; reflexivity); destruct (ema_factor n b _) as [f [|]]; eexists; reflexivity. }
  assert (L : forall me, exists p, level_xs n fermi E me = Ok p).
  { intros me. unfold level_xs. cbv zeta. destruct (Req_EM_T _ _); [eexists; reflexivity|]. destruct (r_proc (n_r n)); try contradiction; try (eexists; reflexivity);
      match goal with |- context [coulomb_factor n fermi ?b] => destruct (F b) as [f ->] end; eexists; reflexivity. }
  assert (P : forall mes, exists ws, partial_xs n fermi E None mes = Ok ws).
  { induction mes as [|me mes [ws IH]]; cbn [partial_xs]; [eexists; reflexivity|]. destruct (Rlt_dec _ _); [eexists; reflexivity|]. destruct (Req_EM_T _ _); [exists ws; exact IH|].
    destruct (L me) as [[x b] ->]. cbn [bind]. rewrite IH. eexists. reflexivity. }
  cbn [mode_rxn x_xs]. unfold nuc_total_xs, summed_xs. destruct (negb _); [eexists; split; reflexivity|]. destruct (Rle_dec E 0); [eexists; split; reflexivity|].
  destruct (P (n_mes n)) as [ws ->]. cbn [bind]. eexists. split; reflexivity.
Qed.
Print Assumptions C62_no_throw.

(** Every source that its constructor accepts with parameters in range is a source as the
    generator model sees it, and meets what C62_event asks of it. *)
Theorem C62_source s : SourceThms.proper s -> exists ns, ns_pid ns = Source.source_pid s /\
  Source.source_Emin s = Ok (ns_min ns) /\ Source.source_Emax s = Ok (ns_max ns) /\ (forall E, Source.pdf s E = Ok (XReal.Fin (ns_pdf ns E))) /\
  (forall E, 0 <= ns_pdf ns E) /\ (forall E, E < ns_min ns \/ ns_max ns < E -> ns_pdf ns E = 0) /\ ns_min ns <= ns_max ns.
Proof.
  intros H. destruct (SourceThms.C39_density s H) as (lo & hi & E1 & E2 & Hl & H1 & H2).
  set (f := fun E => match Source.pdf s E with Ok (XReal.Fin v) => v | _ => 0 end).
  assert (F : forall E, Source.pdf s E = Ok (XReal.Fin (f E)) /\ 0 <= f E).
  { intros E. unfold f. destruct (Rlt_dec E lo) as [L|L]; [rewrite (H1 E (or_introl L)); split; [reflexivity|lra]|]. destruct (Rlt_dec hi E) as [L'|L']; [rewrite (H1 E (or_intror L')); split; [reflexivity|lra]|].
    destruct (H2 E ltac:(lra)) as (v & V & ->). split; [reflexivity|exact V]. }
  exists (mknsource (Source.source_pid s) lo hi f). cbn [ns_pid ns_min ns_max ns_pdf]. split; [reflexivity|]. split; [exact E1|]. split; [exact E2|].
  split; [intros E; apply F|]. split; [intros E; apply F|]. split; [intros E HE; unfold f; rewrite (H1 E HE); reflexivity|exact Hl].
Qed.
Print Assumptions C62_source.
