(** Property C53, continued: targets, and the configured generator at work. *)
From Coq Require Import List Ascii String ZArith Reals Bool Lia Lra Permutation Sorted.
From Coq Require Import Floats.SpecFloat.
From Verif Require Import Base Dbl Json JsonProofs JsonRtProofs Pdg PdgThms Names React Levels MatEl MatElThms Mass NucReact NucSpec NucEventThms Kin KinSpec Rot RotSpec Sample SampleProofs XReal Grid GridThms Quad Source SourceThms Target TargetThms Gen GenThms
  Decay DecaySpec DeexSpec Run RunThms Config ConfigSpec ConfigProofs ConfigThms.
From Verif Require Files RotProofs.
Import ListNotations.
Open Scope string_scope.
Open Scope list_scope.
Open Scope R_scope.

(** ** Targets *)

Lemma put_keys k (m : list (Z * unit)) : (forall x, In x (map fst (put k tt m)) <-> x = k \/ In x (map fst m)).
Proof.
  intros x. induction m as [|[k' []] r IH]; cbn [put]; [cbn [map fst In]; intuition|]. destruct (Z.ltb_spec k k'); [cbn [map fst In]; intuition|].
  destruct (Z.eqb_spec k k') as [->|N]; cbn [map fst In]; [intuition|]. rewrite IH. intuition.
Qed.
Lemma atom_set_spec rx : (forall a, In a (atom_set rx) <-> In a (map x_atom rx)) /\ NoDup (atom_set rx).
Proof.
  unfold atom_set. assert (G : forall m : list (Z * unit), StronglySorted lt_key m ->
    (forall a, In a (map fst (fold_left (fun s r => put (x_atom r) tt s) rx m)) <-> In a (map x_atom rx) \/ In a (map fst m)) /\ StronglySorted lt_key (fold_left (fun s r => put (x_atom r) tt s) rx m)).
  { induction rx as [|r rx IH]; intros m S; cbn [fold_left map]; [split; [intros a; cbn [In]; tauto|exact S]|].
    destruct (IH _ (put_sorted (x_atom r) tt m S)) as [A B]. split; [|exact B]. intros a. rewrite A, put_keys. cbn [In]. intuition. }
  destruct (G [] ltac:(constructor)) as [A B]. split; [intros a; rewrite A; cbn [map In]; tauto|].
  clear - B. induction B as [|[k u] m _ IH F]; cbn [map fst]; constructor; [|exact IH]. intros HI. apply in_map_iff in HI. destruct HI as ([k' u'] & E & HI). cbn [fst] in E. subst k'. rewrite Forall_forall in F. specialize (F _ HI). unfold lt_key in F. cbn [fst] in F. lia.
Qed.

Lemma sum_ones {A} (l : list A) : sumR (map (fun _ => 1) l) = INR (List.length l).
Proof. induction l as [|x l IH]; [reflexivity|]. cbn [map sumR List.length]. rewrite IH, S_INR. lra. Qed.

(** The reactions a configuration gives, with their atoms, and the target made for them. *)
Lemma target_inv c j k : create_generator c j = Ok k -> exists ms,
  map x_atom (gn_rx (z_state (k_gen k))) = map x_atom (map mode_rxn ms) /\ (held j "reactions" <> Some JNull -> ms <> []) /\
  ((given j (map mode_rxn ms) = Ok None /\ gn_target (z_state (k_gen k)) = None) \/
   (exists ns fs t, given j (map mode_rxn ms) = Ok (Some (ns, fs)) /\ make_target (ce_warn c) ns fs = Ok t /\ gn_target (z_state (k_gen k)) = Some t)).
Proof.
  intros H. destruct (create_form _ _ _ H) as (o & src & w & def & ms & t & z1 & z2 & _ & _ & _ & _ & _ & _ & E2 & HP & HT & HK).
  destruct (final_state c j k o src w def ms t _ HK H) as (_ & _ & F3 & _ & F5). exists ms. split; [|split].
  - rewrite F5. destruct HK as [[_ ->]|(_ & m & _ & _ & _ & g & _ & ->)]; [reflexivity|]. cbn [z_modes]. rewrite !map_map. apply map_ext. intros x. destruct x; reflexivity.
  - intros N E. destruct HK as [[X _]|(_ & m & _ & HK)]; [contradiction|]. cbv zeta in HK. destruct HK as ((r & HI & _) & _). subst ms. destruct HI.
  - rewrite F3. destruct (target_form _ _ _ _ _ _ _ _ _ HT) as [[G E]|(ns & fs & t' & G & M & E)].
    + left. split; [exact G|]. apply (f_equal z_state) in E. apply (f_equal gn_target) in E. exact E.
    + right. exists ns, fs, t'. split; [exact G|]. split; [exact M|]. apply (f_equal z_state) in E. apply (f_equal gn_target) in E. exact E.
Qed.

(** Without a target in the configuration the atoms of the reactions share it equally, and no
    other atom is in it. *)
Theorem C53_default_target c j k : create_generator c j = Ok k -> held j "target" = None -> held j "reactions" <> Some JNull ->
  let g := z_state (k_gen k) in let atoms := map x_atom (gn_rx g) in
  exists t, gn_target g = Some t /\
    (forall a, In a atoms -> atom_fraction t a = / INR (List.length (nodup Z.eq_dec atoms))) /\ (forall a, ~ In a atoms -> atom_fraction t a = 0).
Proof.
  intros H HT HR. destruct (target_inv _ _ _ H) as (ms & EA & NM & HG). cbv zeta. rewrite EA. unfold given in HG. rewrite HT in HG. specialize (NM HR). set (rx := map mode_rxn ms) in *.
  assert (NR : rx <> []) by (intros E; apply map_eq_nil in E; contradiction).
  destruct HG as [[G _]|(ns & fs & t & G & M & E)]; [destruct rx; [contradiction|discriminate]|].
  assert (GG : ns = atom_set rx /\ fs = map (fun _ => 1) (atom_set rx)) by (destruct rx; [contradiction|]; injection G as <- <-; auto).
  destruct GG as [-> ->]. destruct (atom_set_spec rx) as [A ND]. exists t. split; [exact E|]. destruct (C48_fractions _ _ _ _ M) as (F1 & F2 & _). split.
  - intros a HA. apply A in HA. destruct (In_nth_error _ _ HA) as [i Hi]. rewrite (F1 i a 1 Hi) by (apply map_nth_error with (f := fun _ => 1) in Hi; exact Hi). rewrite sum_ones.
    assert (L : List.length (atom_set rx) = List.length (nodup Z.eq_dec (map x_atom rx))).
    { apply Permutation_length, NoDup_Permutation; [exact ND|apply NoDup_nodup|]. intros x. rewrite nodup_In. apply A. }
    rewrite L. unfold Rdiv. apply Rmult_1_l.
  - intros a HA. apply F2. rewrite A. exact HA.
Qed.
Print Assumptions C53_default_target.

Lemma listed_spec : forall ns fs l m, listed_atoms ns fs = Ok (l, m) -> List.length ns = List.length fs ->
  Forall2 (fun n a => exists i, n = JInt i /\ a = to_int i /\ (0 < particle_A a)%Z) ns l /\ Forall2 (fun f x => numeric f = Some x) fs m.
Proof.
  induction ns as [|n ns IH]; intros fs l m H L; destruct fs as [|f fs]; try discriminate L; cbn [listed_atoms] in H.
  - injection H as <- <-. split; constructor.
  - destruct n as [| |n| | | |]; cbn [to_long negb] in H; try discriminate H. unfold target_atom in H. destruct (Z.leb_spec (particle_A (to_int n)) 0) as [|P]; cbn [bind] in H; [discriminate|].
    destruct (to_double f) as [x ok] eqn:EF. destruct ok; cbn [negb] in H; [|discriminate]. bind_in H. destruct a as [l' m']. injection H as <- <-.
    destruct (IH fs l' m') as [A B]; [assumption|injection L as L; exact L|]. split; constructor; [exists n; auto|exact A| |exact B].
    destruct f; cbn [to_double numeric] in *; try discriminate EF; injection EF as <-; reflexivity.
Qed.

(** A target in the configuration lists valid, distinct atoms and as many fractions, none
    negative and not all zero; the target has these fractions divided by their sum. *)
Theorem C53_given_target c j k spec : create_generator c j = Ok k -> held j "target" = Some spec ->
  exists t ns fs atoms fracs, gn_target (z_state (k_gen k)) = Some t /\ held spec "nuclides" = Some (JArr ns) /\ held spec "atom_fractions" = Some (JArr fs) /\
    List.length ns = List.length fs /\ ns <> [] /\
    Forall2 (fun n a => exists i, n = JInt i /\ a = to_int i /\ (0 < particle_A a)%Z) ns atoms /\ Forall2 (fun f x => numeric f = Some x) fs fracs /\
    NoDup atoms /\ Forall (fun x => 0 <= x) fracs /\ 0 < sumR fracs /\
    (forall i a x, nth_error atoms i = Some a -> nth_error fracs i = Some x -> atom_fraction t a = x / sumR fracs) /\
    (forall a, ~ In a atoms -> atom_fraction t a = 0).
Proof.
  intros H HT. destruct (target_inv _ _ _ H) as (ms & _ & _ & HG). unfold given in HG. rewrite HT in HG.
  destruct (held spec "nuclides") as [[| | | | |ns|]|] eqn:EN; try (destruct HG as [[G _]|(? & ? & ? & G & _)]; discriminate G).
  destruct (held spec "atom_fractions") as [[| | | | |fs|]|] eqn:EF; try (destruct HG as [[G _]|(? & ? & ? & G & _)]; discriminate G).
  destruct (Nat.eqb_spec (List.length ns) (List.length fs)) as [L|L]; cbn [negb] in HG; [|destruct HG as [[G _]|(? & ? & ? & G & _)]; discriminate G].
  destruct (Nat.eqb_spec (List.length ns) 0) as [L0|L0]; [destruct HG as [[G _]|(? & ? & ? & G & _)]; discriminate G|].
  destruct (listed_atoms ns fs) as [[atoms fracs]|] eqn:EL; cbn [bind] in HG; [|destruct HG as [[G _]|(? & ? & ? & G & _)]; discriminate G].
  destruct HG as [[G _]|(ns' & fs' & t & G & M & E)]; [discriminate|]. injection G as <- <-. destruct (listed_spec _ _ _ _ EL L) as [A B].
  destruct (C48_fractions _ _ _ _ M) as (F1 & F2 & _). assert (AR : target_args (ce_warn c) atoms fracs) by (apply C48_accepts; eexists; exact M). destruct AR as (_ & A1 & A2 & A3 & _).
  exists t, ns, fs, atoms, fracs. split; [exact E|]. split; [reflexivity|]. split; [reflexivity|]. split; [exact L|]. split; [intros ->; contradiction|]. auto 10.
Qed.
Print Assumptions C53_given_target.

Lemma target_good c j k : create_generator c j = Ok k -> good_target (gn_target (z_state (k_gen k))).
Proof.
  intros H. destruct (target_inv _ _ _ H) as (ms & _ & _ & [[_ ->]|(ns & fs & t & _ & M & ->)]); cbn [good_target]; [exact I|]. intros n.
  destruct (C48_fractions _ _ _ _ M) as (_ & _ & _ & _ & _ & F & _). unfold atom_fraction. destruct (assoc n t) as [f|] eqn:E; [|lra].
  rewrite Forall_forall in F. assert (In (n, f) t); [|apply (F _ H0)]. clear - E. induction t as [|[k v] t IH]; [discriminate|]. cbn [assoc] in E. destruct (Z.eqb_spec n k) as [->|]; [injection E as <-; left; reflexivity|right; auto].
Qed.

(** ** The same generator by calls *)

(** The result of normalising does not depend on what an earlier normalisation left. *)
Lemma normalize_same g g' : slots g -> slots g' -> gn_rx g = gn_rx g' -> gn_source g = gn_source g' -> gn_target g = gn_target g' -> gn_weight g = gn_weight g' ->
  gn_hold g = false -> gn_hold g' = false -> gn_default g = gn_default g' -> normalize g = normalize g'.
Proof.
  intros S S' E1 E2 E3 E4 E5 E6 E7. unfold normalize. rewrite E5, E6. cbv zeta.
  set (h := set_norm (set_max g (gn_default g)) 1). set (h' := set_norm (set_max g' (gn_default g')) 1).
  assert (SH : slots h) by exact S. assert (SH' : slots h') by exact S'.
  assert (W : forall E r, weighted_xs h E r = weighted_xs h' E r) by (intros E r; unfold weighted_xs, h, h', set_norm, set_max; cbn [gn_target gn_source]; rewrite E2, E3; reflexivity).
  assert (P : forall E, E_pdf h E = E_pdf h' E).
  { intros E. rewrite (E_pdf_ok h E SH), (E_pdf_ok h' E SH'). change (gn_rx h) with (gn_rx g). change (gn_rx h') with (gn_rx g'). change (gn_weight h) with (gn_weight g). change (gn_weight h') with (gn_weight g').
    change (gn_source h) with (gn_source g). change (gn_source h') with (gn_source g'). change (gn_norm h) with 1. change (gn_norm h') with 1. rewrite E1, E2, E4. rewrite (map_ext _ _ (W E)). reflexivity. }
  change (gn_source h) with (gn_source g). change (gn_source h') with (gn_source g'). rewrite E2.
  assert (D : E_density h = E_density h') by (apply FunctionalExtensionality.functional_extensionality; intros E; unfold E_density; rewrite P; reflexivity).
  rewrite P, D, (E_pdf_ok h' _ SH'). f_equal.
  unfold set_norm, set_xs, h, h', set_max, set_norm. cbn [gn_rx gn_xs gn_source gn_target gn_weight gn_hold gn_default gn_max gn_norm]. rewrite E1, E2, E3, E4, E5, E6, E7. reflexivity.
Qed.

Definition direction_calls (j : json) : list uop :=
  match held j "direction" with
  | None => []
  | Some (JObj l) => match entry (JObj l) "x" (Some 0), entry (JObj l) "y" (Some 0), entry (JObj l) "z" (Some 1) with Some x, Some y, Some z => [UDirection (mkv x y z)] | _, _, _ => [] end
  | Some _ => [URandom true]
  end.

Lemma adds_end v gs ms : forall z, ms <> [] -> slots (z_state z) -> gn_hold (z_state z) = false -> gn_rx (z_state z) = map mode_rxn (z_modes z) ->
  let z' := fold_left (ustep v gs) (map (fun m => UAdd (Some m)) ms) z in
  z_modes z' = z_modes z ++ ms /\ z_rot z' = z_rot z /\ z_deex z' = z_deex z /\
  z_state z' = fst (normalize (mkgstate (map mode_rxn (z_modes z ++ ms)) (map (fun _ => 0) (z_modes z ++ ms)) (gn_source (z_state z)) (gn_target (z_state z)) (gn_weight (z_state z)) 1 false (gn_default (z_state z)) None)).
Proof.
  induction ms as [|m ms IH]; intros z N S HH HR; [contradiction|]. cbv zeta. cbn [map fold_left].
  set (z1 := ustep v gs z (UAdd (Some m))).
  assert (Z1 : z_modes z1 = z_modes z ++ [m] /\ z_rot z1 = z_rot z /\ z_deex z1 = z_deex z) by (repeat split).
  set (g1 := mkgstate (gn_rx (z_state z) ++ [mode_rxn m]) (gn_xs (z_state z) ++ [0]) (gn_source (z_state z)) (gn_target (z_state z)) (gn_weight (z_state z)) (gn_norm (z_state z)) (gn_hold (z_state z)) (gn_default (z_state z)) (gn_max (z_state z))).
  assert (ST : z_state z1 = fst (normalize g1)) by reflexivity.
  assert (S1 : slots g1) by (unfold slots in *; cbn [g1 gn_xs gn_rx]; rewrite !app_length, S; reflexivity).
  assert (EQ : normalize g1 = normalize (mkgstate (map mode_rxn (z_modes z1)) (map (fun _ => 0) (z_modes z1)) (gn_source (z_state z)) (gn_target (z_state z)) (gn_weight (z_state z)) 1 false (gn_default (z_state z)) None)).
  { apply normalize_same; try reflexivity; try assumption; [unfold slots; cbn [gn_xs gn_rx]; rewrite !map_length; reflexivity|]. cbn [g1 gn_rx]. rewrite (proj1 Z1), map_app, HR. reflexivity. }
  destruct (normalize_keeps g1 S1) as (K1 & K2 & K3 & K4 & K5 & K6). cbv zeta in *.
  assert (K7 : gn_default (fst (normalize g1)) = gn_default (z_state z)).
  { unfold normalize. change (gn_hold g1) with (gn_hold (z_state z)). rewrite HH. cbv zeta. rewrite (E_pdf_ok _ _ (S1 : slots (set_norm (set_max g1 (gn_default g1)) 1))). reflexivity. }
  destruct Z1 as (Z1 & Z2 & Z3). destruct ms as [|m' ms].
  - cbn [map fold_left]. rewrite Z1, Z2, Z3, ST, EQ, Z1. auto.
  - destruct (IH z1) as (A1 & A2 & A3 & A4); [discriminate|rewrite ST; exact K1|rewrite ST, K6; exact HH|rewrite ST, K2, Z1, map_app; cbn [g1 gn_rx map]; rewrite HR; reflexivity|]. cbv zeta in *.
    rewrite A1, A2, A3, A4, Z1, Z2, Z3, ST, K3, K4, K5, K7, <- app_assoc. auto.
Qed.

(** A configuration is a shorthand: unless it sets "energy_pdf_max" or has no reactions, the
    generator it gives is in the same state as a new generator on which the direction, the
    flux weighting flag, the source, the target and the de-excitation flag were set and then
    the reactions added one by one. *)
Theorem C53_calls v gs c j k : create_generator c j = Ok k -> held j "energy_pdf_max" = None -> held j "reactions" <> Some JNull ->
  let z := k_gen k in let g := z_state z in
  z = fold_left (ustep v gs) (direction_calls j ++ [UWeight (gn_weight g); USource (Some (gn_source g)); UTarget (gn_target g); UDeex (z_deex z)] ++ map (fun m => UAdd (Some m)) (z_modes z)) fresh_generator /\
  z_modes z <> [] /\ 0 < gn_norm g.
Proof.
  intros H HE HR. cbv zeta. destruct (create_form _ _ _ H) as (o & src & w & def & ms & t & z1 & z2 & _ & _ & _ & HD & E1 & HS & E2 & _ & _ & HK).
  destruct (final_state c j k o src w def ms t _ HK H) as (F1 & F2 & F3 & F4 & F5). rewrite F1, F2, F3, F4.
  destruct HK as [[X _]|(_ & m & _ & HK)]; [contradiction|]. cbv zeta in HK. destruct HK as ((r & HI & _) & _ & g & HN & EK). rewrite EK. cbn [z_modes z_state].
  set (ms' := map (with_cmode m) ms) in *. assert (NM : ms' <> []) by (intros X; rewrite X in HI; destruct HI). clear HI.
  assert (DEF : def = None).
  { subst z1. destruct (source_form j _ o _ eq_refl HS) as (s' & w' & d' & X & Y). rewrite X in E2. apply (f_equal (fun z => gn_default (z_state z))) in E2. cbn [building z_state gn_default] in E2. rewrite <- E2. exact (Y HE). }
  subst def.
  assert (DIR : fold_left (ustep v gs) (direction_calls j) fresh_generator = mkgen [] new_generator o true).
  { subst z1. unfold prepare_direction in HD. unfold direction_calls. key "direction" j; [|injection HD as <-; reflexivity].
    destruct v0; try discriminate HD.
    - destruct (bytes_eqb _ _); [|discriminate HD]. injection HD as <-. reflexivity.
    - change (vx (o_dir (z_rot start))) with 0 in HD. change (vy (o_dir (z_rot start))) with 0 in HD. change (vz (o_dir (z_rot start))) with 1 in HD.
      bind_in HD. rename E into EX. bind_in HD. rename E into EY. bind_in HD. rename E into EZ. apply number_entry in EX, EY, EZ. rewrite EX, EY, EZ. bind_in HD. injection HD as <-.
      cbn [fold_left ustep]. change (z_rot fresh_generator) with (z_rot start). rewrite E. reflexivity. }
  rewrite !fold_left_app, DIR. set (z0 := fold_left _ _ (mkgen [] new_generator o true)).
  assert (Z0 : z0 = mkgen [] (mkgstate [] [] src t w 1 false None None) o (deex_of j)) by (unfold z0; destruct t; reflexivity).
  destruct (adds_end v gs ms' z0 NM) as (A1 & A2 & A3 & A4); [rewrite Z0; reflexivity..|]. cbv zeta in *.
  split; [|split; [exact NM|]].
  - destruct (fold_left _ (map _ ms') z0) as [zm zs zr zd]. cbn [z_modes z_rot z_deex z_state] in *. rewrite Z0 in A1, A2, A3, A4. cbn [z_modes z_rot z_deex z_state app gn_source gn_target gn_weight gn_default] in *.
    rewrite HN in A4. cbn [fst] in A4. congruence.
  - unfold normalize in HN. cbn [gn_hold] in HN. cbv zeta in HN. destruct (E_pdf _ _) as [[xs u]|] in HN; [|discriminate]. destruct (Rle_dec _ 0) as [|P] in HN; [discriminate|]. injection HN as <-. cbn [set_norm gn_norm]. apply Rnot_le_lt. exact P.
Qed.
Print Assumptions C53_calls.

(** ** Reactions of a configuration *)

(** A mass table without negative masses, and a massive electron. *)
Definition sane_table (t : mtab) : Prop := (forall p m, particle_mass t p = Ok m -> 0 <= m) /\ forall m, particle_mass t ELECTRON = Ok m -> 0 < m.

(** A reaction on a nuclide that is heavier than nothing, to levels that are not below the
    ground state, with strengths and a Fermi function that are not negative; or an electron of
    an atom. *)
Definition sane_mode (m : mode) : Prop :=
  match m with
  | MNuc n fermi => (exists Zb Ab, nuclide Zb Ab /\ r_b (n_r n) = nucleus_pid Zb Ab) /\ 0 < n_mb n /\ 0 < n_mdgs n /\
      Forall (fun x => 0 <= me_energy x /\ 0 <= me_str x) (n_mes n) /\ forall beta, 0 <= beta <= 1 -> 0 <= fermi beta
  | MEl _ atom => (0 <= particle_Z atom)%Z
  end.

Lemma with_cmode_sane x m : sane_mode (with_cmode x m) <-> sane_mode m.
Proof. destruct m; reflexivity. Qed.

Lemma load_ok c text f : load_modes c text = Ok f -> sane_table (ce_mt c) -> Forall (fun m => sane_mode m -> forall x, mode_ok (with_cmode x m)) f.
Proof.
  unfold load_modes. intros H [ST SE]. bind_in H. apply load_cases in E. destruct a as [rs tb|ps]; apply map_res_forall2 in H.
  - destruct E as (pt & pb & E & _). pose proof (nuclear_members _ _ _ E) as NM. rewrite Forall_forall in NM.
    assert (G : forall r, In r rs -> forall m, (do n <- make_nuclear (ce_mt c) tb r; Ok (MNuc n (ce_fermi c r))) = Ok m -> sane_mode m -> forall x, mode_ok (with_cmode x m)).
    { intros r HI m HM HS x. bind_in HM. injection HM as <-. unfold make_nuclear in E0. do 2 bind_in E0. rename a0 into ma. rename a1 into mc. rename E1 into EA. rename E2 into EC. bind_in E0. bind_in E0. injection E0 as <-.
      cbn [with_cmode mode_ok sane_mode n_r n_ma n_mb n_mc n_mdgs n_mes] in *. destruct HS as ((Zb & Ab & HN & HB) & S1 & S2 & S3 & S4).
      split; [|split; [exact S2|split; [|split]]].
      - unfold masses_ok. cbn [n_r n_ma n_mb n_mc n_mdgs n_mes]. repeat split; [exact (ST _ _ EA)|exact S1|exact (ST _ _ EC)|lra|]. eapply Forall_impl; [|exact S3]. cbv beta. tauto.
      - eapply Forall_impl; [|exact S3]. cbv beta. tauto.
      - apply C59_factor; [exact (ST _ _ EC)|exact S4].
      - exists pt, Zb, Ab, rs. split; [exact HN|]. destruct (NM _ HI) as [X _]. rewrite <- HB, X. auto. }
    clear - G H. induction H as [|r m rs f H _ IH]; constructor; [exact (G r (or_introl eq_refl) m H)|]. apply IH. intros r' HI. apply G. right. exact HI.
  - clear - H ST SE. induction H as [|p m ps f H _ IH]; constructor; [|exact IH]. unfold make_electron in H. do 3 bind_in H. injection H as <-. intros HS x. cbn [with_cmode mode_ok sane_mode] in *.
    eexists. eexists. eexists. split; [exact E1|]. split; [exact HS|]. split; [intros q; destruct (particle_mass (ce_mt c) q) eqn:EQ; [exact (ST _ _ EQ)|lra]|]. cbv beta. rewrite E0. exact (SE _ eq_refl).
Qed.

Lemma chosen_in m : forall fs seen, In m (chosen seen fs) -> exists f, In f fs /\ In m f.
Proof.
  induction fs as [|[|x f] fs IH]; intros seen H; cbn [chosen] in H; [destruct H| |].
  - destruct (IH _ H) as (f & A & B). exists f. split; [right; exact A|exact B].
  - destruct (existsb _ seen); [destruct (IH _ H) as (f' & A & B); exists f'; split; [right; exact A|exact B]|]. apply in_app_or in H. destruct H as [H|H]; [exists (x :: f); split; [left; reflexivity|exact H]|].
    destruct (IH _ H) as (f' & A & B). exists f'. split; [right; exact A|exact B].
Qed.

(** The reactions of a configured generator are those the theorems about events speak about,
    whatever file they come from, if the numbers in the tables make sense. *)
Theorem C53_modes c j k : create_generator c j = Ok k -> sane_table (ce_mt c) -> Forall sane_mode (z_modes (k_gen k)) -> Forall mode_ok (z_modes (k_gen k)).
Proof.
  intros H ST HS. destruct (create_form _ _ _ H) as (o & src & w & def & ms & t & z1 & z2 & _ & _ & _ & _ & _ & _ & E2 & HP & _ & HK). subst z2.
  destruct (reactions_form _ _ _ _ _ _ _ _ HP) as [[X EB]|(names & fs & EJ & N & F & EB)]; apply (f_equal z_modes) in EB; cbn [z_modes building] in EB.
  - destruct HK as [[_ ->]|[Y _]]; [|contradiction]. cbn [z_modes building]. rewrite EB. constructor.
  - destruct HK as [[Y _]|(_ & m & _ & HK)]; [rewrite Y in EJ; discriminate|]. cbv zeta in HK. destruct HK as (_ & _ & g & _ & EK). rewrite EK in *. cbn [z_modes] in *.
    apply Forall_forall. intros y HY. rewrite Forall_forall in HS. specialize (HS y HY). apply in_map_iff in HY. destruct HY as (x & <- & HX). rewrite EB in HX. apply chosen_in in HX. destruct HX as (f & HF & HX).
    assert (L : exists n, file_modes c n = Ok f). { clear - F HF. induction F as [|n f' names fs [F1 _] _ IH]; [destruct HF|]. destruct HF as [->|HF]; [exists n; exact F1|exact (IH HF)]. }
    destruct L as [n L]. unfold file_modes in L. destruct (Files.find_file _ _ _); [discriminate|]. pose proof (load_ok _ _ _ L ST) as G. rewrite Forall_forall in G. apply (G x HX). apply (with_cmode_sane m). exact HS.
Qed.
Print Assumptions C53_modes.

(** ** Events of a configured generator *)

Theorem C53_density spec pdg s : neutrino pdg -> described spec pdg s ->
  (forall es hi, named spec ["hist"; "histogram"] -> vector spec "E_bin_lefts" es -> entry spec "Emax" None = Some hi -> Forall (fun x => x = 0 \/ tiny < x) (es ++ [hi])) ->
  (forall es ps, named spec ["grid"] -> vector spec "energies" es -> vector spec "prob_densities" ps ->
     increasing (combine es ps) /\ Forall (fun x => x = 0 \/ tiny < x) es /\ Forall (fun y => 0 < y) ps) ->
  SourceThms.proper s.
Proof.
  intros HN HD HH HG. destruct HD as [E N HE P|N N1 N2|lo hi T eta s N H1 H2 H3 H4 L P H|lo hi mean beta s N H1 H2 H3 H4 L P P' H|es ws hi ds s N H1 H2 H3 P D H|es ps m s N H1 H2 H3 H].
  - apply (proper_mono pdg E). unfold make_mono. rewrite (proj2 (check_pid_ok pdg) HN). reflexivity.
  - apply (proper_dar pdg). unfold make_dar. rewrite (proj2 (check_pid_ok pdg) HN). cbn [bind]. unfold neutrino in HN. destruct HN as [-> |[-> |[-> |[-> |[-> | ->]]]]]; try reflexivity; contradiction.
  - exact (proper_fermi _ _ _ _ _ _ L P H).
  - exact (proper_beta _ _ _ _ _ _ L P H).
  - apply (proper_grid pdg IConstant (es ++ [hi]) (ds ++ [0]) s (densities_increasing _ _ _ _ D)); [|intros [X|X]; discriminate|exact H]. intros x HX. specialize (HH _ _ N H1 H3). rewrite Forall_forall in HH. exact (HH x HX).
  - destruct (HG _ _ N H1 H2) as (G1 & G2 & G3). rewrite Forall_forall in G2, G3. apply (proper_grid pdg m _ _ s G1); auto.
Qed.
Print Assumptions C53_density.

(** From a configuration to an event: any generator a configuration gives, whatever files,
    source, target and direction it names, creates only events by one of its reactions, for a
    neutrino of its source within the energies of the source, on an atom of its target, in the
    configured direction, with everything balanced. *)
Theorem C53_event v gs c j k d fuel z' ev : let z := k_gen k in let src := gn_source (z_state z) in
  create_generator c j = Ok k -> held j "energy_pdf_max" = None -> held j "reactions" <> Some JNull -> sane_table (ce_mt c) -> Forall sane_mode (z_modes z) ->
  env_ok v -> good_run d -> (forall x, 0 <= ns_pdf src x) -> ns_min src <= ns_max src ->
  create_event v gs z d fuel = (z', Ok ev) ->
  exists m E, In m (z_modes z) /\ r_a (mode_reaction m) = ns_pid src /\ 0 < fraction (gn_target (z_state z)) (atom_of m) /\
    ns_min src <= E <= ns_max src /\ 0 < ns_pdf src E /\ 0 < x_xs (mode_rxn m) (ns_pid src) E /\
    pid (e_projectile ev) = ns_pid src /\ pid (e_target ev) = r_b (mode_reaction m) /\ pid (e_ejectile ev) = r_c (mode_reaction m) /\
    en (e_projectile ev) = E + mass (e_projectile ev) /\
    (0 < momentum_magnitude (e_projectile ev) ->
       momentum (e_projectile ev) = scale (momentum_magnitude (e_projectile ev)) (if o_random (z_rot z) then isotropic (q_ct d) (q_phi d) else o_dir (z_rot z))) /\
    (fits (r_d (mode_reaction m)) (e_others ev) -> balanced ev).
Proof.
  cbv zeta. intros H HE HR HT HS Hv Hd HF HL HC. destruct (C53_calls v gs c j k H HE HR) as (EZ & _ & EN). cbv zeta in *.
  pose proof (C53_modes _ _ _ H HT HS) as HM. pose proof (target_good _ _ _ H) as TG.
  match type of EZ with _ = fold_left _ ?l _ => set (ops := l) in *; assert (GU : Forall good_uop ops) end.
  { unfold ops. apply Forall_app. split; [|apply Forall_app; split].
    - unfold direction_calls. destruct (held j "direction") as [[| | | | | |l]|]; repeat constructor. repeat match goal with |- context [match ?e with Some _ => _ | None => _ end] => destruct e end; repeat constructor.
    - repeat constructor.
    - apply Forall_forall. intros op HI. apply in_map_iff in HI. destruct HI as (m & <- & _). exact Logic.I. }
  rewrite EZ in HM, TG, EN, HF, HL, HC.
  pose proof (C62_event v gs ops d fuel z' ev Hv GU Hd HM TG EN HF HL HC) as (_ & G). rewrite <- EZ in G. exact G.
Qed.
Print Assumptions C53_event.

