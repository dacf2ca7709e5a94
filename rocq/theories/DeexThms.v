(** Theorems about the de-excitation of events (C32, C33). *)
From Coq Require Import List ZArith Reals Lra Lia Bool.
From Verif Require Import Base Pdg PdgThms Kin KinSpec KinProofs KinThms Sample SampleProofs SampleThms Mass MassThms
  Decay DecaySpec DecayProofs ChannelProofs CascadeThms SelectThms DeexSpec DeexProofs.
Import ListNotations.
Local Open Scope R_scope.

Lemma photon_emitted p : photon p -> emitted p.
Proof. intros (A & _ & B). unfold emitted, protons. rewrite A, B. split; [left; reflexivity|reflexivity]. Qed.

Lemma photons_carry_nothing l : Forall photon l -> zsum protons l = 0%Z /\ zsum nucleons l = 0%Z /\ zsum chg l = 0%Z.
Proof.
  induction 1 as [|p l (A & _ & B) _ (I1 & I2 & I3)]; [repeat split|]. rewrite !zsum_cons. unfold protons at 1, nucleons at 1. rewrite A, B, I1, I2, I3.
  repeat split.
Qed.

Lemma no_photon_sums es gs : Forall photon gs ->
  zsum protons (es ++ gs) = zsum protons es /\ zsum nucleons (es ++ gs) = zsum nucleons es /\
  zsum neutrons (es ++ gs) = zsum neutrons es /\ zsum chg (es ++ gs) = zsum chg es.
Proof.
  intros H. destruct (photons_carry_nothing gs H) as (A & B & C).
  assert (D : zsum neutrons gs = 0%Z).
  { clear A B C. induction H as [|p l (A & _) _ IH]; [reflexivity|]. rewrite zsum_cons, IH. unfold neutrons, nucleons, protons. rewrite A. reflexivity. }
  rewrite !zsum_app, A, B, C, D. repeat split; lia.
Qed.

Lemma last_cons {A} (ls : list A) : forall a d, last (a :: ls) d = last ls a.
Proof. induction ls as [|b ls IH]; intros a d; [reflexivity|]. change (last (b :: ls) d = last (b :: ls) a). rewrite !IH. reflexivity. Qed.

(** The last step, taken apart. *)
Lemma finish_spec v residue Ex check cd fuel r gs : finish v residue Ex check cd fuel = Ok (r, gs) ->
  env_ok v -> cascade_draws cd -> is_nucleus residue ->
  exists ds lev last m0, v_scheme v (pid residue) = Some ds /\ In lev (s_levels ds) /\ In last (s_levels ds) /\
    (check = true -> Rabs (Ex - rl_E lev) <= ex_tolerance) /\ rl_gammas last = [] /\
    (exists i, rl_closest (s_levels ds) Ex = Some i /\ nth_error (s_levels ds) i = Some lev) /\
    ion_mass (v_mt v) (pid residue) (chg residue) = Ok m0 /\
    Forall photon gs /\ Forall on_shell (r :: gs) /\ same_p4 [residue] (r :: gs) /\
    pid r = pid residue /\ chg r = chg residue /\ 0 < mass r /\
    (gs = [] -> r = residue /\ last = lev) /\ (gs <> [] -> mass r = m0 + rl_E last).
Proof.
  intros H Hv Hd (Zn & A & HN & Hp & Hq & Ho & HM). unfold finish in H.
  destruct (v_scheme v (pid residue)) as [ds|] eqn:ES; [|discriminate].
  destruct (rl_closest (s_levels ds) Ex) as [i|] eqn:EC; [|discriminate].
  destruct (nth_error (s_levels ds) i) as [lev|] eqn:EL; [|discriminate].
  destruct (_ && _)%bool eqn:EB; [discriminate|].
  pose proof Hv as (Ht & _ & Hs). destruct (Hs _ _ ES) as [HP HL].
  pose proof Ht as ((me & Hme & _) & _).
  destruct (ion_mass_nuclide (v_mt v) Zn A (chg residue) me Ht HN Hq Hme) as [EI Hpos]. rewrite <- Hp in EI.
  pose proof (nth_error_In _ _ EL) as HIn. rewrite Forall_forall in HL.
  set (m0 := mass_MeV (v_mt v) Zn A - IZR (chg residue) * me) in *.
  destruct (C29_conserves _ _ _ _ _ _ _ _ _ _ m0 H Hd) as (path & P1 & P2 & P3 & P4 & P5 & P6 & P7);
    [rewrite HP; exact EI| |apply HL; exact HIn|exact Ho|exact HM|].
  { apply Forall_forall. intros l Hl. destruct (HL l Hl) as [G1 G2]. split; [exact G1|lra]. }
  assert (LL : In (last_level lev path) (s_levels ds) /\ rl_gammas (last_level lev path) = []).
  { clear -P1 HIn. induction P1 as [lev E|lev w j lev' ls HI HW HN HP IH].
    - split; [exact HIn|exact E].
    - assert (E : last_level lev (lev' :: ls) = last_level lev' ls).
      { unfold last_level. apply last_cons. }
      rewrite E. apply IH. eapply nth_error_In. exact HN. }
  destruct LL as [LL1 LL2].
  exists ds, lev, (last_level lev path), m0. split; [reflexivity|]. split; [exact HIn|]. split; [exact LL1|].
  split. { intros ->. cbn [andb] in EB. destruct (Rlt_dec ex_tolerance (Rabs (Ex - rl_E lev))); [discriminate|lra]. }
  split; [exact LL2|]. split; [exists i; split; assumption|]. split; [exact EI|]. split; [exact P3|]. split; [exact P4|]. split; [exact P5|].
  destruct path as [|p0 path].
  - pose proof (P6 eq_refl) as ->. destruct gs; [|discriminate]. split; [reflexivity|]. split; [reflexivity|]. split; [exact HM|].
    split; [intros _; split; reflexivity|intros C; contradiction].
  - destruct (P7 ltac:(discriminate)) as (Q1 & Q2 & Q3). rewrite HP in Q1. split; [exact Q1|]. split; [exact Q2|].
    split; [rewrite Q3; pose proof (HL _ LL1) as [_ G]; lra|]. split; [intros ->; discriminate|intros _; exact Q3].
Qed.

(** Whatever is emitted comes after what was there; projectile, target, ejectile and
    the initial excitation stay; the new particles are gammas and the listed light
    fragments, with their proper charges. And where the nucleus can contain what it
    emits, four-momentum, electric charge, proton and nucleon number are conserved,
    every new particle is on its mass shell and what is left is a nucleus. *)
Theorem C32_conserves v ev hd cd fuel ev' : deexcite v ev hd cd fuel = Ok ev' ->
  env_ok v -> hf_draws hd -> cascade_draws cd -> is_nucleus (e_residue ev) ->
  exists new, e_others ev' = e_others ev ++ new /\
    e_projectile ev' = e_projectile ev /\ e_target ev' = e_target ev /\ e_ejectile ev' = e_ejectile ev /\
    e_Ex ev' = e_Ex ev /\ e_twoJ ev' = e_twoJ ev /\ e_parity ev' = e_parity ev /\ Forall emitted new /\
    (contains (e_residue ev) new ->
       same_p4 (final_parts ev) (final_parts ev') /\
       zsum chg (final_parts ev) = zsum chg (final_parts ev') /\
       zsum protons (final_parts ev) = zsum protons (final_parts ev') /\
       zsum nucleons (final_parts ev) = zsum nucleons (final_parts ev') /\
       Forall on_shell (e_residue ev' :: new) /\ is_nucleus (e_residue ev')).
Proof.
  intros H Hv Hh Hc HR.
  assert (U : ev' = ev -> exists new, e_others ev' = e_others ev ++ new /\
    e_projectile ev' = e_projectile ev /\ e_target ev' = e_target ev /\ e_ejectile ev' = e_ejectile ev /\
    e_Ex ev' = e_Ex ev /\ e_twoJ ev' = e_twoJ ev /\ e_parity ev' = e_parity ev /\ Forall emitted new /\
    (contains (e_residue ev) new ->
       same_p4 (final_parts ev) (final_parts ev') /\
       zsum chg (final_parts ev) = zsum chg (final_parts ev') /\
       zsum protons (final_parts ev) = zsum protons (final_parts ev') /\
       zsum nucleons (final_parts ev) = zsum nucleons (final_parts ev') /\
       Forall on_shell (e_residue ev' :: new) /\ is_nucleus (e_residue ev'))).
  { intros ->. exists []. rewrite app_nil_r. repeat (split; [reflexivity|]). split; [constructor|]. intros _.
    split; [apply same_p4_refl|]. repeat (split; [reflexivity|]). split; [|exact HR]. constructor; [|constructor].
    destruct HR as (Zn & A & _ & _ & _ & Ho & _). exact Ho. }
  unfold deexcite in H. cbv zeta in H. destruct (Req_EM_T (e_Ex ev) 0); [injection H as <-; apply U; reflexivity|].
  destruct (Rlt_dec (e_Ex ev) 0); [discriminate|].
  destruct (negb (is_ion _)); [injection H as <-; apply U; reflexivity|].
  destruct (ion_mass _ _ _) as [gs|] eqn:EG; cbn [bind] in H; [|discriminate].
  destruct (Rlt_dec ex_tolerance _) as [L|L].
  { destruct (Rle_dec _ ex_tolerance); [injection H as <-; apply U; reflexivity|discriminate]. }
  destruct (unbound_threshold _ _) as [thr|]; cbn [bind] in H; [|discriminate]. clear U.
  assert (Main : forall r es gs, ev' = with_residue ev r (es ++ gs) -> Forall emitted es -> Forall photon gs ->
     (contains (e_residue ev) es -> same_p4 [e_residue ev] (r :: es ++ gs) /\
        chg (e_residue ev) = (chg r + zsum chg es)%Z /\ protons (e_residue ev) = (protons r + zsum protons es)%Z /\
        nucleons (e_residue ev) = (nucleons r + zsum nucleons es)%Z /\ Forall on_shell (r :: es ++ gs) /\ is_nucleus r) ->
     exists new, e_others ev' = e_others ev ++ new /\
    e_projectile ev' = e_projectile ev /\ e_target ev' = e_target ev /\ e_ejectile ev' = e_ejectile ev /\
    e_Ex ev' = e_Ex ev /\ e_twoJ ev' = e_twoJ ev /\ e_parity ev' = e_parity ev /\ Forall emitted new /\
    (contains (e_residue ev) new ->
       same_p4 (final_parts ev) (final_parts ev') /\
       zsum chg (final_parts ev) = zsum chg (final_parts ev') /\
       zsum protons (final_parts ev) = zsum protons (final_parts ev') /\
       zsum nucleons (final_parts ev) = zsum nucleons (final_parts ev') /\
       Forall on_shell (e_residue ev' :: new) /\ is_nucleus (e_residue ev'))).
  { intros r es gs1 -> He Hg HC. exists (es ++ gs1). unfold with_residue. cbn [e_others e_projectile e_target e_ejectile e_Ex e_twoJ e_parity e_residue].
    repeat (split; [reflexivity|]).
    split. { apply Forall_app. split; [exact He|]. eapply Forall_impl; [|exact Hg]. intros p. apply photon_emitted. }
    destruct (no_photon_sums es gs1 Hg) as (S1 & S2 & S3 & S4).
    intros (C1 & C2 & C3). destruct HC as (A1 & A2 & A3 & A4 & A5 & A6); [unfold contains; lia|].
    unfold final_parts. cbn [e_ejectile e_residue e_others].
    split; [clear - A1; p4|]. rewrite !zsum_cons, !zsum_app in *.
    split; [lia|]. split; [lia|]. split; [lia|]. split; assumption. }
  match type of H with (if ?b then _ else _) = _ => destruct b eqn:EB end.
  - destruct (hf_loop _ _ _ _ _ _ _ _) as [[[[r E'] cont] es]|] eqn:EL; cbn [bind] in H; [|discriminate].
    pose proof (hf_loop_emitted v hd Hv _ _ _ _ _ _ _ _ _ _ EL) as He.
    destruct HR as (Zn & A & HN & Hp & Hq & Ho & HM).
    pose proof Hv as (((me & Hme & _) & _) & _).
    assert (LOOP : contains (e_residue ev) es -> same_p4 [e_residue ev] (r :: es) /\
        chg (e_residue ev) = (chg r + zsum chg es)%Z /\ protons (e_residue ev) = (protons r + zsum protons es)%Z /\
        nucleons (e_residue ev) = (nucleons r + zsum nucleons es)%Z /\ Forall on_shell (r :: es) /\ is_nucleus r).
    { intros HC. destruct (hf_loop_step v hd me Hv Hme Hh _ _ _ _ _ _ _ _ _ _ Zn A EL HN Hp Hq Ho HM HC)
        as (Zf & Af & I1 & I2 & I3 & I4 & I5 & I6 & I7 & I8 & I9 & I10 & _).
      destruct (nuclide_decodes _ _ HN) as [D1 D2]. destruct (nuclide_decodes _ _ I3) as [D3 D4].
      split; [exact I10|]. split; [lia|]. unfold protons at 1 2, nucleons at 1 2. rewrite Hp, I4, D1, D2, D3, D4.
      split; [lia|]. split; [lia|]. split; [constructor; assumption|]. exists Zf, Af. split; [exact I3|]. repeat split; try assumption; apply I7. }
    destruct cont.
    + injection H as <-. apply (Main r es []); [rewrite app_nil_r; reflexivity|exact He|constructor|]. rewrite app_nil_r. exact LOOP.
    + destruct (finish v r E' false cd fuel) as [[r' gs']|] eqn:EF; cbn [bind] in H; [|discriminate]. injection H as <-.
      assert (PH : Forall photon gs').
      { unfold finish in EF. destruct (v_scheme v (pid r)) as [ds|] eqn:ES; [|discriminate].
        destruct (rl_closest _ _) as [i|]; [|discriminate]. destruct (nth_error _ i) as [lev|]; [|discriminate].
        cbn [andb] in EF. clear -EF. revert EF. generalize (chg r) as q. intros q. generalize 0%nat as turn. revert r' gs' lev r.
        induction fuel as [|fuel IH]; intros r' gs' lev r turn H; [discriminate|]. rewrite cascade_unfold in H.
        destruct (rl_gammas lev) as [|g0 gr]; [injection H as _ <-; constructor|].
        destruct (nth_error _ _) as [[w [j|]]|]; try discriminate. destruct (nth_error (s_levels ds) j) as [lev'|]; [|discriminate].
        destruct (ion_mass _ _ _) as [m0|]; cbn [bind] in H; [|discriminate].
        destruct (two_body_decay _ _ _ _ _) as [[g n]|] eqn:ED; cbn [bind] in H; [|discriminate].
        destruct (cascade _ _ _ _ _ _ _ _) as [[r1 gs1]|] eqn:EC; cbn [bind] in H; [|discriminate]. injection H as _ <-.
        constructor; [|eapply IH; exact EC]. apply decay_kind in ED. destruct ED as ((A & B & C) & _). unfold photon. rewrite <- A, <- B, <- C. repeat split. }
      apply (Main r' es gs'); [reflexivity|exact He|exact PH|]. intros HC. destruct (LOOP HC) as (A1 & A2 & A3 & A4 & A5 & A6).
      destruct (finish_spec _ _ _ _ _ _ _ _ EF Hv Hc A6) as (ds & lev & la & m0 & F1 & F2 & F3 & F4 & F5 & F6 & F7 & F8 & F9 & F10 & F11 & F12 & F13 & _).
      pose proof (Forall_inv F9) as O1. pose proof (Forall_inv_tail F9) as O2.
      pose proof (Forall_inv A5) as O3. pose proof (Forall_inv_tail A5) as O4.
      split; [p4|]. rewrite F12. unfold protons at 2, nucleons at 2. rewrite F11. fold (protons r). fold (nucleons r).
      split; [lia|]. split; [exact A3|]. split; [exact A4|]. split; [constructor; [exact O1|apply Forall_app; split; assumption]|].
      destruct A6 as (Zf & Af & B1 & B2 & B3 & B4 & B5). exists Zf, Af. rewrite F11, F12. repeat split; try assumption; try apply B1; apply O1.
  - destruct (finish v (e_residue ev) (e_Ex ev) true cd fuel) as [[r' gs']|] eqn:EF; cbn [bind] in H; [|discriminate]. injection H as <-.
    destruct (finish_spec _ _ _ _ _ _ _ _ EF Hv Hc HR) as (ds & lev & la & m0 & F1 & F2 & F3 & F4 & F5 & F6 & F7 & F8 & F9 & F10 & F11 & F12 & F13 & _).
    pose proof (Forall_inv F9) as O1.
    apply (Main r' [] gs'); [reflexivity|constructor|exact F8|]. intros _. cbn [app zsum fold_right].
    split; [exact F10|]. rewrite F12. unfold protons at 2, nucleons at 2. rewrite F11.
    split; [lia|]. unfold protons, nucleons. split; [lia|]. split; [lia|]. split; [exact F9|].
    destruct HR as (Zf & Af & B1 & B2 & B3 & B4 & B5). exists Zf, Af. rewrite F11, F12. repeat split; try assumption; try apply B1; apply O1.
Qed.
Print Assumptions C32_conserves.

(** A channel that is open can be decayed into: a nucleus whose mass matches its
    excitation energy has enough of it for the products. *)
Theorem C32_feasible v nucleus Ex J P cs x d fuel Exf Jf Pf Zn A uc up :
  let c := mkcomp (pid nucleus) (chg nucleus) Ex J P in
  env_ok v -> particle_mass (v_mt v) PHOTON = Ok 0 -> nuclide Zn A -> pid nucleus = nucleus_pid Zn A -> (chg nucleus <= Zn)%Z ->
  on_shell nucleus -> 0 < mass nucleus -> excited (v_mt v) nucleus Ex ->
  exit_channels v c = Ok cs -> In x cs -> sample_final v c x d fuel = Ok (Exf, Jf, Pf) -> unit_draw uc ->
  nuclide (Zn - particle_Z (emitted_pdg x)) (A - particle_A (emitted_pdg x)) ->
  exists e r, prepare_products v c x nucleus Exf uc up = Ok (e, r).
Proof.
  intros c Hv Hph HN Hp Hq Ho HM (m & EI & EM) EC HI ES Hu HNF.
  pose proof (exit_channels_in _ _ _ _ EC HI) as HC.
  pose proof (emitted_code v c x Hv HC) as HE. destruct (emitted_charge _ HE) as (EQ & HZe & HAe).
  pose proof Hv as ((( me & Hme & Hme1) & Htm & _) & _).
  pose proof (sample_final_nonneg v c x d fuel Exf Jf Pf Hv HC ES) as HX.
  assert (TOP : exists top, top_of v c (x_frag x) top) by (destruct HC as (top & HT & _); exists top; exact HT).
  destruct TOP as [top HT]. pose proof (sample_final_range v c x d fuel Exf Jf Pf top HC HT ES) as HR.
  destruct (ion_mass_nuclide (v_mt v) Zn A (chg nucleus) me (proj1 Hv) HN Hq Hme) as [EI1 P1]. rewrite <- Hp, EI in EI1. injection EI1 as EI1.
  destruct (ion_mass_nuclide (v_mt v) _ _ (chg nucleus - particle_Z (emitted_pdg x)) me (proj1 Hv) HNF ltac:(lia) Hme) as [EI2 P2].
  assert (PM : exists mf, particle_mass (v_mt v) (emitted_pdg x) = Ok mf /\
     mf + (mass_MeV (v_mt v) (Zn - particle_Z (emitted_pdg x)) (A - particle_A (emitted_pdg x)) -
           IZR (chg nucleus - particle_Z (emitted_pdg x)) * me + Exf) <= mass nucleus).
  { rewrite EM, EI1, minus_IZR. unfold emitted_pdg in *. destruct (x_frag x) as [[[f s] Pa]|].
    - cbn [top_of] in HT. destruct HT as (Hf & HT & _). unfold max_Exf in HT. change (c_pdg c) with (pid nucleus) in HT.
      assert (Hf0 : (0 <= f)%Z).
      { destruct HE as [<-|HE]; [discriminate|]. unfold fragment_pdgs in HE. repeat (destruct HE as [<-|HE]; [discriminate|]). destruct HE. }
      assert (PF : exists mf, particle_mass (v_mt v) f = Ok mf).
      { unfold separation, separation_ZA in HT. destruct (part_at (v_mt v) ELECTRON) as [a|]; cbn [bind] in HT; [|discriminate].
        destruct (part_at (v_mt v) f) as [b0|] eqn:EB; cbn [bind] in HT; [|discriminate].
        unfold particle_mass. rewrite (proj2 (Z.ltb_ge f 0) Hf0). cbv zeta. rewrite EB. cbn [bind]. eexists. reflexivity. }
      destruct PF as [mf EF]. exists mf. split; [exact EF|].
      destruct (nuclide_decodes _ _ HN) as [D1 D2]. unfold separation in HT. rewrite Hp, D1, D2 in HT.
      rewrite (C49_separation (v_mt v) Zn A f me mf Hf0 Hme EF) in HT. cbn [bind] in HT. injection HT as HT. change (c_Ex c) with Ex in HT. lra.
    - exists 0. split; [exact Hph|]. cbn [top_of] in HT. change (c_Ex c) with Ex in HT.
      change (particle_Z PHOTON) with 0%Z. change (particle_A PHOTON) with 0%Z. rewrite !Z.sub_0_r. lra. }
  destruct PM as (mf & EF & LE). pose proof (Htm _ _ HE EF) as Hmf.
  unfold prepare_products. rewrite EF. cbn [bind]. unfold particle2. rewrite EQ. cbn [bind]. cbv zeta.
  rewrite (final_pdg_nuclide Zn A c x Hp HN). change (c_q c) with (chg nucleus). rewrite EI2. cbn [bind].
  destruct (C44_conserves nucleus (mkpart (emitted_pdg x) 0 0 0 0 mf (particle_Z (emitted_pdg x)))
     (particle3 (nucleus_pid (Zn - particle_Z (emitted_pdg x)) (A - particle_A (emitted_pdg x)))
        (mass_MeV (v_mt v) (Zn - particle_Z (emitted_pdg x)) (A - particle_A (emitted_pdg x)) -
           IZR (chg nucleus - particle_Z (emitted_pdg x)) * me + Exf) (chg nucleus - particle_Z (emitted_pdg x)))
     (uniform (-1) 1 uc) (uniform 0 (2 * PI) up)) as (e & r & E & _);
    [exact Ho|exact HM|exact Hmf|cbn [mass particle3]; lra|exact LE|apply uniform_unit; [lra|exact Hu]|].
  exists e, r. exact E.
Qed.
Print Assumptions C32_feasible.

(** Level schemes whose gammas go down and whose levels are in order. *)
Definition schemes_ok (v : env) : Prop :=
  forall pdg ds, v_scheme v pdg = Some ds -> downward ds /\ levels_sorted (s_levels ds).

(** Once a discrete level has been reached the gamma cascade cannot fail: there is
    level data, the level is found at exactly its energy, and the cascade ends. *)
Theorem C32_cascade_succeeds v residue Ex J P hd cd turn fuel r E es fuel' ds :
  env_ok v -> schemes_ok v -> hf_draws hd -> cascade_draws cd -> is_nucleus residue ->
  hf_loop v residue Ex J P hd turn fuel = Ok (r, E, false, es) -> contains residue es ->
  v_scheme v (pid r) = Some ds -> (length (s_levels ds) <= fuel')%nat ->
  exists r' gs, finish v r E false cd fuel' = Ok (r', gs) /\ (length gs < length (s_levels ds))%nat.
Proof.
  intros Hv Hs Hh Hc (Zn & A & HN & Hp & Hq & Ho & HM) EL HC ED HF.
  pose proof Hv as (((me & Hme & _) & _) & _ & HS).
  destruct (hf_loop_step v hd me Hv Hme Hh _ _ _ _ _ _ _ _ _ _ Zn A EL HN Hp Hq Ho HM HC)
    as (Zf & Af & I1 & I2 & I3 & I4 & I5 & I6 & I7 & I8 & I9 & I10 & I11 & I12 & I13 & I14).
  destruct (I14 eq_refl) as (ds' & lev & E1 & E2 & E3). rewrite ED in E1. injection E1 as <-.
  assert (NE : es <> []) by (intros C; destruct (I11 C) as (_ & _ & C'); discriminate).
  destruct (I12 NE) as (HE & m0 & EM & EX). destruct (Hs _ _ ED) as [H1 H2]. destruct (HS _ _ ED) as [HP HL].
  destruct (closest_exact (s_levels ds) lev H2 E2) as (i & lev' & F1 & F2 & F3). rewrite E3 in F1.
  assert (LI : (i < length (s_levels ds))%nat) by (apply nth_error_Some; congruence).
  assert (PP : 0 < m0).
  { destruct (ion_mass_nuclide (v_mt v) Zf Af (chg r) me (proj1 Hv) I3 I5 Hme) as [EI P1]. rewrite <- I4, EM in EI. injection EI as ->. exact P1. }
  rewrite Forall_forall in HL.
  destruct (C29_succeeds (v_mt v) ds (chg r) r cd 0 i lev' fuel' m0 H1 H2 F2 ltac:(lia)) as (r' & gs & EC & LG).
  - rewrite HP. exact EM.
  - apply Forall_forall. intros l Hl. destruct (HL l Hl) as [_ G]. lra.
  - exact Hc.
  - exact I7.
  - rewrite F3, E3. exact EX.
  - exists r', gs. split; [|lia]. unfold finish. rewrite ED, F1, F2. cbn [andb]. exact EC.
Qed.
Print Assumptions C32_cascade_succeeds.

(** Where de-excitation does anything, it ends in a level without gammas or with an
    excitation energy of at most 1 keV, and the residue has the corresponding mass. *)
Theorem C32_ends v ev hd cd fuel ev' new : deexcite v ev hd cd fuel = Ok ev' ->
  env_ok v -> schemes_ok v -> hf_draws hd -> cascade_draws cd -> is_nucleus (e_residue ev) ->
  e_others ev' = e_others ev ++ new -> contains (e_residue ev) new ->
  ev' = ev \/
  exists m0 E', ion_mass (v_mt v) (pid (e_residue ev')) (chg (e_residue ev')) = Ok m0 /\
    Rabs (mass (e_residue ev') - (m0 + E')) <= 2 * ex_tolerance /\
    (E' <= gs_cutoff \/ exists ds lev, v_scheme v (pid (e_residue ev')) = Some ds /\ In lev (s_levels ds) /\ rl_gammas lev = [] /\ rl_E lev = E').
Proof.
  intros H Hv Hs Hh Hc HR HO HC.
  unfold deexcite in H. cbv zeta in H. destruct (Req_EM_T (e_Ex ev) 0); [injection H as <-; left; reflexivity|].
  destruct (Rlt_dec (e_Ex ev) 0); [discriminate|].
  destruct (negb (is_ion _)); [injection H as <-; left; reflexivity|].
  destruct (ion_mass _ _ _) as [gs|] eqn:EG; cbn [bind] in H; [|discriminate].
  destruct (Rlt_dec ex_tolerance _) as [L|L].
  { destruct (Rle_dec _ ex_tolerance); [injection H as <-; left; reflexivity|discriminate]. }
  destruct (unbound_threshold _ _) as [thr|]; cbn [bind] in H; [|discriminate]. right.
  assert (T0 : 0 < ex_tolerance) by (unfold ex_tolerance; lra).
  match type of H with (if ?b then _ else _) = _ => destruct b eqn:EB end.
  - destruct (hf_loop _ _ _ _ _ _ _ _) as [[[[r E'] cont] es]|] eqn:EL; cbn [bind] in H; [|discriminate].
    assert (HNew : exists gs', new = es ++ gs' /\ Forall photon gs' /\ (cont = true -> ev' = with_residue ev r es) /\
       (cont = false -> exists r', finish v r E' false cd fuel = Ok (r', gs') /\ e_residue ev' = r')).
    { destruct cont.
      - injection H as <-. cbn [with_residue e_others] in HO. apply app_inv_head in HO. exists []. rewrite app_nil_r.
        split; [symmetry; exact HO|]. split; [constructor|]. split; [reflexivity|discriminate].
      - destruct (finish v r E' false cd fuel) as [[r' gs']|] eqn:EF; cbn [bind] in H; [|discriminate]. injection H as <-.
        cbn [with_residue e_others] in HO. apply app_inv_head in HO. exists gs'. split; [symmetry; exact HO|].
        split; [|split; [discriminate|intros _; exists r'; split; reflexivity]].
        clear -EF. unfold finish in EF. destruct (v_scheme v (pid r)) as [ds|] eqn:ES; [|discriminate].
        destruct (rl_closest _ _) as [i|]; [|discriminate]. destruct (nth_error _ i) as [lev|]; [|discriminate].
        cbn [andb] in EF. clear -EF. revert EF. generalize (chg r) as q. intros q. generalize 0%nat as turn. revert r' gs' lev r.
        induction fuel as [|fuel IH]; intros r' gs' lev r turn H; [discriminate|]. rewrite cascade_unfold in H.
        destruct (rl_gammas lev) as [|g0 gr]; [injection H as _ <-; constructor|].
        destruct (nth_error _ _) as [[w [j|]]|]; try discriminate. destruct (nth_error (s_levels ds) j) as [lev'|]; [|discriminate].
        destruct (ion_mass _ _ _) as [m0|]; cbn [bind] in H; [|discriminate].
        destruct (two_body_decay _ _ _ _ _) as [[g n0]|] eqn:ED; cbn [bind] in H; [|discriminate].
        destruct (cascade _ _ _ _ _ _ _ _) as [[r1 gs1]|] eqn:EC; cbn [bind] in H; [|discriminate]. injection H as _ <-.
        constructor; [|eapply IH; exact EC]. apply decay_kind in ED. destruct ED as ((A & B & C) & _). unfold photon. rewrite <- A, <- B, <- C. repeat split. }
    destruct HNew as (gs' & -> & HPh & HT & HFa).
    assert (HC' : contains (e_residue ev) es).
    { destruct (no_photon_sums es gs' HPh) as (S1 & S2 & S3 & S4). destruct HC as (C1 & C2 & C3). unfold contains. lia. }
    destruct HR as (Zn & A & HN & Hp & Hq & Ho & HM). pose proof Hv as (((me & Hme & _) & _) & _ & HS).
    destruct (hf_loop_step v hd me Hv Hme Hh _ _ _ _ _ _ _ _ _ _ Zn A EL HN Hp Hq Ho HM HC')
      as (Zf & Af & I1 & I2 & I3 & I4 & I5 & I6 & I7 & I8 & I9 & I10 & I11 & I12 & I13 & I14).
    destruct cont.
    + rewrite (HT eq_refl). cbn [with_residue e_residue]. destruct es as [|e es].
      * destruct (I11 eq_refl) as (-> & -> & _). exists gs, (e_Ex ev). split; [exact EG|]. split; [lra|]. left. apply I13. reflexivity.
      * destruct (I12 ltac:(discriminate)) as (_ & m0 & EM & EX). exists m0, E'. split; [exact EM|]. rewrite EX. replace (m0 + E' - (m0 + E')) with 0 by ring.
        rewrite Rabs_R0. split; [lra|]. left. apply I13. reflexivity.
    + destruct (HFa eq_refl) as (r' & EF & ->).
      assert (NE : es <> []) by (intros C; destruct (I11 C) as (_ & _ & C'); discriminate).
      destruct (I12 NE) as (HE & m0 & EM & EX). destruct (I14 eq_refl) as (ds1 & lev1 & G1 & G2 & G3).
      destruct (finish_spec _ _ _ _ _ _ _ _ EF Hv Hc) as (ds & lev & la & m0' & F1 & F2 & F3 & F4 & F5 & (i & F6a & F6b) & F7 & F8 & F9 & F10 & F11 & F12 & F13 & F14 & F15).
      { exists Zf, Af. repeat split; try assumption; try apply I3; apply I7. }
      rewrite F11, F12. rewrite EM in F7. injection F7 as <-. rewrite F1 in G1. injection G1 as <-. exists m0, (rl_E la).
      split; [exact EM|]. split; [|right; exists ds, la; split; [exact F1|]; split; [exact F3|]; split; [exact F5|reflexivity]].
      destruct gs' as [|g gs'].
      * destruct (F14 eq_refl) as [-> ->]. destruct (Hs _ _ F1) as [_ H2].
        destruct (closest_exact (s_levels ds) lev1 H2 G2) as (i' & lev' & K1 & K2 & K3). rewrite G3, F6a in K1. injection K1 as <-.
        rewrite F6b in K2. injection K2 as <-. rewrite EX, K3, G3. replace (m0 + E' - (m0 + E')) with 0 by ring. rewrite Rabs_R0. lra.
      * rewrite (F15 ltac:(discriminate)). replace (m0 + rl_E la - (m0 + rl_E la)) with 0 by ring. rewrite Rabs_R0. lra.
  - destruct (finish v (e_residue ev) (e_Ex ev) true cd fuel) as [[r' gs']|] eqn:EF; cbn [bind] in H; [|discriminate]. injection H as <-.
    cbn [with_residue e_residue].
    destruct (finish_spec _ _ _ _ _ _ _ _ EF Hv Hc HR) as (ds & lev & la & m0 & F1 & F2 & F3 & F4 & F5 & F6 & F7 & F8 & F9 & F10 & F11 & F12 & F13 & F14 & F15).
    rewrite F11, F12. rewrite EG in F7. injection F7 as <-. exists gs, (rl_E la). split; [exact EG|].
    split; [|right; exists ds, la; split; [exact F1|]; split; [exact F3|]; split; [exact F5|reflexivity]].
    destruct gs' as [|g gs'].
    + destruct (F14 eq_refl) as [-> ->]. pose proof (F4 eq_refl) as F4'.
      replace (mass (e_residue ev) - (gs + rl_E lev)) with ((mass (e_residue ev) - (gs + e_Ex ev)) + (e_Ex ev - rl_E lev)) by ring.
      eapply Rle_trans; [apply Rabs_triang|]. lra.
    + rewrite (F15 ltac:(discriminate)). replace (gs + rl_E la - (gs + rl_E la)) with 0 by ring. rewrite Rabs_R0. lra.
Qed.
Print Assumptions C32_ends.

(** ** C33 *)

(** Nothing to do: no excitation, or a free nucleon; and a negative excitation energy
    is an error. *)
Theorem C33_trivial v ev hd cd fuel :
  (e_Ex ev = 0 -> deexcite v ev hd cd fuel = Ok ev) /\
  (e_Ex ev < 0 -> deexcite v ev hd cd fuel = Er MarleyErr) /\
  (0 <= e_Ex ev -> is_ion (pid (e_residue ev)) = false -> deexcite v ev hd cd fuel = Ok ev).
Proof.
  unfold deexcite. cbv zeta. destruct (Req_EM_T (e_Ex ev) 0) as [E|E]; destruct (Rlt_dec (e_Ex ev) 0) as [L|L];
    repeat split; intros; try reflexivity; try lra. rewrite H0. reflexivity.
Qed.
Print Assumptions C33_trivial.

(** A residue with the ground-state mass: the event is returned as it is, whatever the
    draws. *)
Theorem C33_ground v ev m0 hd cd fuel : 2 * ex_tolerance < e_Ex ev ->
  ion_mass (v_mt v) (pid (e_residue ev)) (chg (e_residue ev)) = Ok m0 ->
  Rabs (mass (e_residue ev) - m0) <= ex_tolerance ->
  deexcite v ev hd cd fuel = Ok ev.
Proof.
  intros HE HM HA. assert (T0 : 0 < ex_tolerance) by (unfold ex_tolerance; lra). unfold deexcite. cbv zeta.
  destruct (Req_EM_T (e_Ex ev) 0); [reflexivity|]. destruct (Rlt_dec (e_Ex ev) 0); [lra|]. destruct (negb _); [reflexivity|].
  rewrite HM. cbn [bind]. destruct (Rlt_dec ex_tolerance _) as [L|L].
  - destruct (Rle_dec _ ex_tolerance); [reflexivity|contradiction].
  - exfalso. apply L. set (d := mass (e_residue ev) - m0) in *.
    replace (mass (e_residue ev) - (m0 + e_Ex ev)) with (- (e_Ex ev - d)) by (unfold d; ring). rewrite Rabs_Ropp.
    apply Rabs_def2b in HA || (unfold Rabs in HA; destruct (Rcase_abs d)); unfold Rabs; destruct (Rcase_abs (e_Ex ev - d)); lra.
Qed.
Print Assumptions C33_ground.

(** So processing an event again after it reached its ground state changes nothing. *)
Theorem C33_twice v ev hd cd fuel ev' m0 hd' cd' fuel' : deexcite v ev hd cd fuel = Ok ev' ->
  2 * ex_tolerance < e_Ex ev ->
  ion_mass (v_mt v) (pid (e_residue ev')) (chg (e_residue ev')) = Ok m0 ->
  Rabs (mass (e_residue ev') - m0) <= ex_tolerance ->
  deexcite v ev' hd' cd' fuel' = Ok ev'.
Proof.
  intros H HE HM HA. apply C33_ground with m0; try assumption.
  assert (E : e_Ex ev' = e_Ex ev); [|rewrite E; exact HE].
  unfold deexcite in H. cbv zeta in H. destruct (Req_EM_T (e_Ex ev) 0); [injection H as <-; reflexivity|].
  destruct (Rlt_dec (e_Ex ev) 0); [discriminate|]. destruct (negb _); [injection H as <-; reflexivity|].
  destruct (ion_mass (v_mt v) (pid (e_residue ev)) _) as [gs|]; cbn [bind] in H; [|discriminate].
  destruct (Rlt_dec _ _); [destruct (Rle_dec _ _); [injection H as <-; reflexivity|discriminate]|].
  destruct (unbound_threshold _ _) as [thr|]; cbn [bind] in H; [|discriminate].
  match type of H with (if ?b then _ else _) = _ => destruct b end.
  - destruct (hf_loop _ _ _ _ _ _ _ _) as [[[[r E'] cont] es]|]; cbn [bind] in H; [|discriminate].
    destruct cont; [injection H as <-; reflexivity|]. destruct (finish _ _ _ _ _ _) as [[r' gs']|]; cbn [bind] in H; [|discriminate].
    injection H as <-. reflexivity.
  - destruct (finish _ _ _ _ _ _) as [[r' gs']|]; cbn [bind] in H; [|discriminate]. injection H as <-. reflexivity.
Qed.
Print Assumptions C33_twice.

(** A residue whose mass fits neither the ground state nor the excitation energy, such
    as one left in an isomeric level, is an error. *)
Theorem C33_partly v ev m0 hd cd fuel : 0 < e_Ex ev -> is_ion (pid (e_residue ev)) = true ->
  ion_mass (v_mt v) (pid (e_residue ev)) (chg (e_residue ev)) = Ok m0 ->
  ex_tolerance < Rabs (mass (e_residue ev) - m0) -> ex_tolerance < Rabs (mass (e_residue ev) - (m0 + e_Ex ev)) ->
  deexcite v ev hd cd fuel = Er MarleyErr.
Proof.
  intros HE HI HM H1 H2. unfold deexcite. cbv zeta. destruct (Req_EM_T (e_Ex ev) 0); [lra|]. destruct (Rlt_dec (e_Ex ev) 0); [lra|].
  rewrite HI. cbn [negb]. rewrite HM. cbn [bind]. destruct (Rlt_dec ex_tolerance _); [|contradiction].
  destruct (Rle_dec _ ex_tolerance); [lra|reflexivity].
Qed.
Print Assumptions C33_partly.

(** Physics that gives some share to what is open: besides being nowhere negative, level
    densities are positive, and so are the transmission coefficients of dipole gammas and
    of fragments without orbital angular momentum, at positive energies. *)
Definition positive_at (v : env) (n : Z) : Prop :=
  nonneg_at v n /\
  (forall E J P, 0 <= E -> (0 <= J)%Z -> 0 < v_rho v n E J P) /\
  (forall f s Pa E J P, In (f, (s, Pa)) (v_frags v) -> 0 <= E -> (0 <= J)%Z -> 0 < v_rho v (fragment_final n f) E J P) /\
  (forall f s Pa E, In (f, (s, Pa)) (v_frags v) -> 0 < E -> 0 < v_T v (fragment_final n f) E f s 0 s) /\
  (forall e E, 0 < E -> 0 < v_TX v n e 1 E) /\
  (0 <= v_flmax v)%Z /\ (1 <= v_glmax v)%Z /\ 0 < v_tol v /\
  (forall f s Pa, In (f, (s, Pa)) (v_frags v) -> (0 <= s)%Z).

Lemma sum_in_pos {A} (f : A -> R) l x : (forall y, In y l -> 0 <= f y) -> In x l -> 0 < f x -> 0 < sumR (map f l).
Proof.
  induction l as [|a l IH]; intros H HI HP; [destruct HI|]. cbn [map]. change (0 < f a + sumR (map f l)).
  assert (0 <= sumR (map f l)) by (apply sum_map_nonneg; intros y Hy; apply H; right; exact Hy).
  destruct HI as [->|HI]; [lra|]. pose proof (IH (fun y Hy => H y (or_intror Hy)) HI HP). pose proof (H a (or_introl eq_refl)). lra.
Qed.

Lemma bisect_below F norm prob tol : forall fuel a b x, a < b -> bisect F norm prob tol a b fuel = Ok x -> a < x < b.
Proof.
  induction fuel as [|fuel IH]; intros a b x Hab H; [discriminate|]. cbn [bisect] in H. cbv zeta in H.
  destruct (Rlt_dec tol (b - a)).
  - destruct (Req_EM_T _ prob); [injection H as <-; lra|]. destruct (Rlt_dec prob _); apply IH in H; lra.
  - injection H as <-. lra.
Qed.

Lemma table_positive v c fr Ec Exf top : positive_at v (c_pdg c) -> 0 <= c_Ex c -> (0 <= c_twoJ c)%Z ->
  top_of v c fr top -> 0 <= Ec -> Ec <= Exf < top ->
  exists tb, table v c fr Ec Exf = Ok tb /\ 0 < sumR (map j_w tb).
Proof.
  intros (H0 & H1 & H1' & H2 & H3 & H4 & H5 & H6 & H7) HX HJ HT HEc HE. pose proof PI_RGT_0 as HPI.
  assert (GC : good_comp v c) by (split; [exact H0|split; assumption]). pose proof (top_known _ _ _ _ HT) as HK.
  assert (NP : 0 < norm_rho v c).
  { unfold norm_rho. apply Rinv_0_lt_compat. apply Rmult_lt_0_compat; [lra|apply H1; assumption]. }
  assert (T0 : 0 < tiny_offset) by (unfold tiny_offset; lra).
  assert (TB : exists tb, table v c fr Ec Exf = Ok tb /\ exists j, In j tb /\ 0 < j_w j).
  { destruct fr as [[[f s] Pa]|]; cbn [table top_of] in *.
    - destruct HT as (HI & EM & _). unfold fragment_table. rewrite EM. cbn [bind].
      destruct (Rlt_dec top Ec); [lra|]. destruct (Rlt_dec Exf _); [lra|]. destruct (Rlt_dec _ Exf); [lra|]. cbv zeta.
      eexists. split; [reflexivity|]. pose proof (H7 _ _ _ HI) as Hs.
      assert (X : In (0, s, Z.abs (c_twoJ c - s), eqb (c_par c) Pa)%Z (fragment_terms (c_twoJ c) (c_par c) s Pa (v_flmax v))).
      { apply in_fragment_terms; [exact HJ|exact Hs|]. split; [lia|]. unfold fragment_allowed, triangle. repeat split; try lia.
        - rewrite !Z.even_add, even_abs_sub, Z.even_add. destruct (Z.even (c_twoJ c)), (Z.even s); reflexivity.
        - rewrite !Z.even_add. destruct (Z.even s); reflexivity.
        - destruct (c_par c), Pa; reflexivity. }
      eexists. split; [refine (proj2 (in_map_iff _ _ _) (ex_intro _ _ (conj eq_refl X)))|]. cbn [j_w]. apply Rmult_lt_0_compat; [|eapply H1'; [exact HI|lra|lia]].
      apply Rmult_lt_0_compat; [exact NP|]. eapply H2; [exact HI|lra].
    - subst top. unfold gamma_table. destruct (Rlt_dec (c_Ex c) Ec); [lra|]. destruct (Rlt_dec Exf _); [lra|]. destruct (Rlt_dec _ Exf); [lra|].
      eexists. split; [reflexivity|].
      assert (X : In (1, c_twoJ c + 2, true)%Z (gamma_terms (c_twoJ c) (v_glmax v))).
      { apply in_gamma_terms; [exact HJ|]. split; [lia|]. unfold gamma_allowed, triangle. repeat split; try lia.
        rewrite !Z.even_add. destruct (Z.even (c_twoJ c)); reflexivity. }
      eexists. split; [refine (proj2 (in_map_iff _ _ _) (ex_intro _ _ (conj eq_refl X)))|]. cbn [j_w]. apply Rmult_lt_0_compat; [|apply H1; [lra|lia]].
      apply Rmult_lt_0_compat; [exact NP|]. apply H3. lra. }
  destruct TB as (tb & ET & j & Hj & Hw). exists tb. split; [exact ET|].
  pose proof (table_nonneg v c fr Ec Exf tb GC HK ltac:(lra) ET) as HN. rewrite Forall_forall in HN.
  apply (sum_in_pos j_w tb j HN Hj Hw).
Qed.

(** With such physics a statistical decay always succeeds, if there is any width. *)
Theorem C32_decay_succeeds v nucleus Ex J P cs d Zn A :
  let c := mkcomp (pid nucleus) (chg nucleus) Ex J P in
  env_ok v -> positive_at v (pid nucleus) -> particle_mass (v_mt v) PHOTON = Ok 0 ->
  nuclide Zn A -> pid nucleus = nucleus_pid Zn A -> (chg nucleus <= Zn)%Z ->
  on_shell nucleus -> 0 < mass nucleus -> excited (v_mt v) nucleus Ex -> 0 <= Ex -> (0 <= J)%Z -> unit_draw (h_cos d) -> h_E d < 1 ->
  exit_channels v c = Ok cs -> 0 < sumR (map x_width cs) ->
  (forall x, In x cs -> nuclide (Zn - particle_Z (emitted_pdg x)) (A - particle_A (emitted_pdg x))) ->
  exists fuel e r Exf Jf Pf cont, hf_decay v nucleus Ex J P d fuel = Ok (e, r, Exf, Jf, Pf, cont).
Proof.
  intros c Hv Hpos Hph HN Hp Hq Ho HM HEx EX0 HJ Hu Hu1 EC HS HC.
  assert (NE : cs <> []) by (intros ->; cbn in HS; lra).
  destruct (nth_discrete_some x_width cs (h_chan d) NE) as [x EN]. pose proof (nth_error_In _ _ EN) as HI.
  pose proof (exit_channels_in _ _ _ _ EC HI) as HK.
  assert (SF : exists fuel Exf Jf Pf, sample_final v c x d fuel = Ok (Exf, Jf, Pf)).
  { destruct HK as (top & HT & HD). unfold sample_final. destruct (x_dest x) as [lev|Ec].
    - exists 0%nat. eexists; eexists; eexists; reflexivity.
    - destruct HD as (HFl & LT & _).
      assert (HEc : 0 <= Ec) by (rewrite HFl; exact (floor_nonneg v _ Hv)).
      assert (EM : chan_max v c (x_frag x) = Ok top).
      { destruct (x_frag x) as [[[f s] Pa]|]; cbn [top_of chan_max] in *; [apply HT|congruence]. }
      rewrite EM. cbn [bind]. pose proof Hpos as (_ & _ & _ & _ & _ & _ & _ & H6 & _).
      destruct (C37_ends_always (v_cdf v (diff_width v c (x_frag x) Ec) Ec top) Ec top (v_tol v) (h_E d) H6) as (n & Exf & EI).
      exists (S n). rewrite EI. cbn [bind].
      assert (RE : Ec <= Exf < top).
      { unfold inverse_transform in EI. destruct (Req_EM_T _ 0); [injection EI as <-; lra|]. destruct (Req_EM_T _ 1); [lra|].
        apply bisect_below in EI; lra. }
      destruct (table_positive v c (x_frag x) Ec Exf top Hpos EX0 HJ HT HEc RE) as (tb & ET & ST). rewrite ET. cbn [bind].
      destruct (Rle_dec _ 0); [lra|]. assert (NT : tb <> []) by (intros ->; cbn in ST; lra).
      destruct (nth_discrete_some j_w tb (h_jpi d) NT) as [j EJ]. rewrite EJ. eexists; eexists; eexists; reflexivity. }
  destruct SF as (fuel & Exf & Jf & Pf & ES).
  destruct (C32_feasible v nucleus Ex J P cs x d fuel Exf Jf Pf Zn A (h_cos d) (h_phi d) Hv Hph HN Hp Hq Ho HM HEx EC HI ES Hu (HC x HI)) as (e & r & EP).
  exists fuel, e, r, Exf, Jf, Pf, (match x_dest x with ToContinuum _ => true | ToLevel _ => false end).
  unfold hf_decay. fold c. rewrite EC. cbn [bind]. cbv zeta. destruct (Rle_dec _ 0); [lra|]. rewrite EN, ES. cbn [bind].
  unfold c in EP |- *. rewrite EP. reflexivity.
Qed.
Print Assumptions C32_decay_succeeds.
