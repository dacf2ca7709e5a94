(** Property C53: what a configuration does not do, and cases that meet the hypotheses of the
    theorems. *)
From Coq Require Import List Ascii String ZArith Reals Bool Lia Lra Permutation Sorted.
From Coq Require Import Floats.SpecFloat.
From Verif Require Import Base Dbl Json JsonProofs JsonRtProofs Pdg PdgThms Names React Levels MatEl MatElThms Mass NucReact NucSpec NucProofs NucEventThms Kin KinSpec KinThms Rot RotSpec RotThms Sample SampleProofs XReal Grid GridThms Quad Source SourceThms Target TargetThms Gen GenThms
  Decay DecaySpec DeexSpec DeexProofs DeexThms DeexCases NucThms Run RunThms RunCases Config ConfigSpec ConfigProofs ConfigThms ConfigRunThms ConfigCases.
From Verif Require Files.
Import ListNotations.
Open Scope string_scope.
Open Scope list_scope.
Open Scope R_scope.

(** Files about several atoms are judged by their first reaction only: the theorem
    C53_reactions is false without its condition. Oxygen can be loaded twice, or not at all
    although a file provides it. *)
Theorem C53_reactions_refuted :
  ~ (forall c j k names files mode, create_generator c j = Ok k -> held j "reactions" = Some (JArr names) -> coulomb_mode j = Ok mode ->
       Forall2 (fun n f => file_modes c n = Ok f) names files ->
       forall key, of_key key (z_modes (k_gen k)) = map (with_cmode mode) (match find (fun f => existsb (fun m => key_eqb key (mode_key m)) f) files with Some f => of_key key f | None => [] end)).
Proof.
  intros H. destruct case_twice as (k & K & M).
  specialize (H case_cenv _ k (map (fun n => JStr (b n)) ["aro.react"; "ox.react"]) [on_atom 18 1000180400 ++ on_atom 8 1000080160; on_atom 8 1000080160] FermiAndMEMA K eq_refl eq_refl).
  specialize (H ltac:(constructor; [apply case_load; cbn [In]; tauto|constructor; [apply case_load; cbn [In]; tauto|constructor]]) (1000080160%Z, NuElectronElastic)).
  rewrite M in H. apply (f_equal (@List.length mode)) in H. discriminate H.
Qed.
Print Assumptions C53_reactions_refuted.

Theorem C53_dropped_refuted :
  ~ (forall c j k names n f m, create_generator c j = Ok k -> held j "reactions" = Some (JArr names) -> In n names -> file_modes c n = Ok f -> In m f ->
       exists m', In m' (z_modes (k_gen k)) /\ mode_key m' = mode_key m).
Proof.
  intros H. destruct case_drop as (k & K & M).
  destruct (H case_cenv _ k (map (fun n => JStr (b n)) ["ar.react"; "aro.react"]) (JStr (b "aro.react")) _ (el (1 / 2 + sin2thetaw) sin2thetaw 8 1000080160 12) K eq_refl ltac:(right; left; reflexivity) (case_load "aro.react" _ (or_intror (or_introl eq_refl)))) as (m' & HI & HK).
  { apply in_or_app. right. left. reflexivity. }
  rewrite M in HI. destruct (on_atom_facts _ _ _ HI) as [HA _]. apply (f_equal fst) in HK. unfold mode_key in HK. cbn [fst] in HK. rewrite HA in HK. discriminate HK.
Qed.
Print Assumptions C53_dropped_refuted.

(** With "reactions": null the generator is left without normalisation for good: a reaction
    added to it that cannot happen is not refused, as it is by a new generator. *)
Theorem C53_null_refuted :
  (forall r, (forall pdg E, x_xs r pdg E = 0) -> snd (add_reaction new_generator (Some r)) = Er MarleyErr) /\
  ~ (forall c j k r, create_generator c j = Ok k -> gn_rx (z_state (k_gen k)) = [] -> (forall pdg E, x_xs r pdg E = 0) ->
       snd (add_reaction (z_state (k_gen k)) (Some r)) = Er MarleyErr).
Proof.
  split.
  - intros r HX. unfold add_reaction, normalize. cbn [new_generator gn_hold gn_rx gn_xs gn_source gn_target gn_weight gn_norm gn_default gn_max app].
    cbv zeta. set (g := set_norm _ 1). rewrite (E_pdf_ok g _ (eq_refl : slots g)). cbv zeta. cbn [g set_norm set_max gn_source default_source ns_min ns_max gn_weight gn_rx].
    destruct (Req_EM_T 10 10) as [_|C]; [|contradiction]. cbn [map sumR]. unfold weighted_xs. cbn [gn_target gn_source]. rewrite HX.
    match goal with |- context [Rle_dec ?x 0] => replace x with 0 by (change (gn_target g) with (@None target); cbv iota; unfold Rdiv; ring) end. destruct (Rle_dec 0 0) as [_|C]; [reflexivity|exfalso; lra].
  - intros H. set (j := JObj [(b "reactions", JNull)]).
    assert (K : create_generator case_cenv j = Ok (mkconf None (building default_source true None [] None (mkrot zaxis zaxis identity false) true) None None)) by reflexivity.
    specialize (H case_cenv j _ (mkrxn 12 0 (fun _ _ => 0)) K eq_refl (fun _ _ => eq_refl)). discriminate H.
Qed.
Print Assumptions C53_null_refuted.

(** A configuration with a direction, a source and a file of reactions gives a generator, and
    that generator creates an event: all hypotheses of C53_event hold. *)
Example C53_case : exists k z' ev, let j := case_json ["ar.react"] in
  create_generator case_cenv j = Ok k /\ held j "energy_pdf_max" = None /\ held j "reactions" <> Some JNull /\ held j "target" = None /\ sane_table (ce_mt case_cenv) /\
  Forall sane_mode (z_modes (k_gen k)) /\ List.length (z_modes (k_gen k)) = 6%nat /\
  env_ok case_env /\ good_run run_d /\ (forall x, 0 <= ns_pdf (gn_source (z_state (k_gen k))) x) /\ ns_min (gn_source (z_state (k_gen k))) <= ns_max (gn_source (z_state (k_gen k))) /\
  create_event case_env run_gs (k_gen k) run_d 1 = (z', Ok ev).
Proof.
  destruct case_one as (k & K & M & S & MX & ED).
  assert (GR : good_run run_d).
  { unfold good_run, run_d, hf_draws, cascade_draws, unit_draw, run_hd. cbn [q_max q_rx q_E q_ev q_hf q_cd q_ct fst snd h_chan h_jpi h_E h_cos h_phi].
    repeat (split; try lra); try apply ex_good; intros; cbn [fst snd]; repeat (split; try lra). }
  assert (SM : Forall sane_mode (z_modes (k_gen k))) by (rewrite M; eapply Forall_impl; [|exact (on_atom_ok 18 1000180400 FermiAndMEMA ltac:(lia) eq_refl)]; intros m [X _]; exact X).
  assert (HF : forall x, 0 <= ns_pdf (gn_source (z_state (k_gen k))) x) by (intros x; rewrite S; cbn [case_src ns_pdf pdf]; destruct (Req_EM_T 10 x); lra).
  assert (HL : ns_min (gn_source (z_state (k_gen k))) <= ns_max (gn_source (z_state (k_gen k)))) by (rewrite S; cbn [case_src ns_min ns_max]; lra).
  assert (HC : exists z' ev, create_event case_env run_gs (k_gen k) run_d 1 = (z', Ok ev)).
  2:{ destruct HC as (z' & ev & HC). exists k, z', ev. cbv zeta. repeat (split; [first [assumption|reflexivity|discriminate|exact sane_case|exact case_ok|rewrite M; reflexivity]|]). exact HC. }
  destruct (C53_calls case_env run_gs _ _ _ K eq_refl ltac:(discriminate)) as (EZ & _ & EN). cbv zeta in EZ.
  match type of EZ with _ = fold_left _ ?l _ => set (ops := l) in *; assert (GU : Forall good_uop ops) end.
  { unfold ops. apply Forall_app. split; [|apply Forall_app; split].
    - unfold direction_calls. cbn [case_json]. repeat match goal with |- context [match ?e with _ => _ end] => destruct e end; repeat constructor.
    - repeat constructor.
    - apply Forall_forall. intros op HI. apply in_map_iff in HI. destruct HI as (m & <- & _). exact Logic.I. }
  destruct (history case_env run_gs ops GU) as (gops & rops & I1 & I2 & I3 & I4 & I5 & I6 & I7). cbv zeta in *. rewrite <- EZ in *.
  assert (SL : slots (z_state (k_gen k))) by (rewrite I1; apply reach_slots).
  pose proof (C53_modes _ _ _ K sane_case SM) as MO. rewrite M in MO.
  destruct (C53_default_target _ _ _ K eq_refl ltac:(discriminate)) as (t & T1 & T2 & _). cbv zeta in *.
  set (g := z_state (k_gen k)) in *. rewrite M in I5.
  assert (TF : atom_fraction t 1000180400 = 1).
  { rewrite T2 by (rewrite I5; left; reflexivity). rewrite I5. change (map x_atom (map mode_rxn (on_atom 18 1000180400))) with [1000180400; 1000180400; 1000180400; 1000180400; 1000180400; 1000180400]%Z.
    replace (nodup Z.eq_dec _) with [1000180400%Z] by (vm_compute; reflexivity). cbn [List.length INR]. lra. }
  set (m0 := el (1 / 2 + sin2thetaw) sin2thetaw 18 1000180400 12).
  assert (W0 : 0 < weighted_xs g 10 (mode_rxn m0)).
  { unfold weighted_xs. rewrite T1, S. change (x_atom (mode_rxn m0)) with 1000180400%Z. rewrite TF, Rmult_1_r. change (ns_pid case_src) with 12%Z. apply el_xs_pos; [lra|lia]. }
  assert (WZ : forall m, In m (tl (on_atom 18 1000180400)) -> weighted_xs g 10 (mode_rxn m) = 0).
  { intros m HI. unfold weighted_xs. rewrite S. change (ns_pid case_src) with 12%Z. assert (X : x_xs (mode_rxn m) 12 10 = 0) by (cbn [tl on_atom] in HI; repeat (destruct HI as [<-|HI]; [reflexivity|]); destruct HI). rewrite X. destruct (gn_target g); ring. }
    assert (D0 : discrete (map (weighted_xs g 10) (gn_rx g)) (1 / 2) = 0%nat).
    { rewrite I5, map_map. cbn [on_atom map]. fold m0. set (w0 := weighted_xs g 10 (mode_rxn m0)) in *. clearbody w0. rewrite !WZ by (cbn [tl on_atom In]; tauto). apply discrete_iff; [repeat (apply Forall_cons; [lra|]); apply Forall_nil|cbn [sumR]; lra|lra|cbn [List.length]; lia|cbn [firstn sumR]; lra]. }
  assert (ES : exists g', sample_reaction g default_safety (q_max run_d) (q_E run_d) (q_rx run_d) 1 = Ok (g', 10, 0%nat) /\ gn_source g' = case_src).
  { unfold sample_reaction. destruct (gn_rx g) as [|r0 rx'] eqn:ER; [rewrite I5 in ER; discriminate|]. rewrite <- ER. rewrite S, MX. cbn [case_src ns_min ns_max run_d q_max q_E q_rx]. unfold rejection_sample. cbn [rejection fst snd]. cbv zeta.
    assert (U : uniform 10 10 (1 / 2) = 10) by (unfold uniform; lra). rewrite U, ED. destruct (Rlt_dec 1 (uniform 0 (1 * default_safety) (1 / 2))) as [C|_]; [exfalso; unfold uniform, default_safety in C; lra|].
    cbn [bind]. rewrite (E_pdf_ok _ _ SL). cbn [bind]. cbv zeta.
    rewrite <- ER in D0. rewrite D0, ER. cbn [List.length Nat.ltb Nat.leb]. eexists. split; [reflexivity|]. exact S. }
  destruct ES as (g' & ES & ESs). unfold create_event. fold g. rewrite ES, M. cbn [on_atom nth_error]. fold m0. rewrite ESs. change (ns_pid case_src) with 12%Z.
  assert (FE : exists ev, full_event case_env run_gs (z_deex (k_gen k)) m0 12 10 run_d 1 = Ok ev).
  { assert (EE : exists ev, mode_event case_env run_gs m0 12 10 ex_draws 1 = Ok ev).
    { cbn [m0 el mode_event]. set (l := mkel _ _ _ _ _). unfold el_create. change (negb (Z.eqb 12 (r_a (l_r l)))) with false. cbv iota.
      assert (N0 : nu = 0) by (unfold nu; ring). assert (MP : 0 < me) by (unfold me, micro_amu; lra).
      assert (T : el_threshold l = 0) by (unfold el_threshold, threshold, l; cbn [l_k k_ma k_mb k_mc k_md]; rewrite N0; field; lra).
      destruct (Rlt_dec _ _) as [C|_]; [exfalso; lra|]. destruct (two_two_scatter (l_k l) 10) as [[[s Ec] pc] Ed] eqn:E2.
      unfold rejection_sample. cbn [rejection ex_draws d_cos d_phi fst snd]. destruct (Rlt_dec _ (uniform 0 _ 0)) as [C|_].
      { exfalso. match type of C with _ < uniform 0 ?m 0 => replace (uniform 0 m 0) with 0 in C by (unfold uniform; lra) end.
        assert (0 <= el_diff_xs l 12 10 (uniform (-1) 1 (1 / 2))); [|lra]. apply C46_electron; unfold l, uniform; cbn [l_k k_ma k_mb l_Z]; try lra; lia. }
      cbn [bind].
      destruct (C45_scattering (l_k l) (ids_of (l_r l)) (charges_of (l_r l)) 10 (uniform (-1) 1 (1 / 2)) (uniform 0 (2 * PI) 0) 0 1 true s Ec pc Ed) as (ev & E & _);
        try (unfold l, uniform; cbn [l_k k_ma k_mb k_mc k_md]; rewrite ?N0; lra); [exact E2|]. exists ev. exact E. }
    destruct EE as [ev EE]. unfold full_event. change (q_ev run_d) with ex_draws. rewrite EE. cbn [bind]. exists ev. destruct (z_deex (k_gen k)); [|reflexivity]. apply (proj1 (C33_trivial _ _ _ _ _)).
    pose proof (prompt_spec _ _ _ _ _ _ _ _ (Forall_inv MO) ex_good EE) as (_ & EO & HP & _ & _ & HX). destruct HX as [HX|HX]; [exact HX|]. exfalso. destruct HX as (Zn & A & HN & Hp & _).
    unfold initial_parts, final_parts in HP. rewrite EO in HP. cbn [app map] in HP. injection HP as _ _ _ HP. rewrite HP in Hp. destruct (nuclide_decodes Zn A HN) as [D1 D2]. rewrite <- Hp in D2. destruct HN as [N1 N2]. vm_compute in D2. lia. }
  destruct FE as [ev FE]. rewrite FE. pose proof (full_spec _ _ _ _ _ _ _ _ _ case_ok (Forall_inv MO) GR FE) as HB.
  destruct (rotation_made rops (q_ct run_d) (q_phi run_d) m0 _ _ ev I3 (proj2 (proj2 (proj2 (proj2 (proj2 (proj2 GR)))))) HB) as (o' & ev' & EPr & _).
  rewrite I2, EPr. eexists _, _. reflexivity.
Qed.

(** Rules and neutrino types by name and by code. *)
Example C53_rules_case : names_rule (b "loglin") ILogLin /\ names_rule (b "4") ILogLin /\ names_rule (b "77") IConstant /\ names_neutrino (b "vubar") (-14) /\ names_neutrino (b "-14") (-14).
Proof.
  assert (D : forall s, forallb is_digit s = true -> s <> [] -> decimal s) by (intros s H N; split; [exact N|apply Forall_forall; apply forallb_forall; exact H]).
  split; [left; exists "loglin"; split; [cbn [In rule_names]; tauto|reflexivity]|]. split; [right; split; [apply D; [reflexivity|discriminate]|split; [reflexivity|left; cbn [In rule_codes]; tauto]]|].
  split; [right; split; [apply D; [reflexivity|discriminate]|split; [reflexivity|right; split; [vm_compute; intros [_ X]; apply X; reflexivity|reflexivity]]]|].
  assert (N : neutrino (-14)) by (unfold neutrino; tauto). split; (split; [exact N|]).
  - left. exists "vubar". split; [cbn [In neutrino_names]; tauto|reflexivity].
  - right. exists (b "14"). split; [apply D; [reflexivity|discriminate]|]. right. right. split; reflexivity.
Qed.

(** A histogram with two bins: 1 to 3 with content 2, and 3 to 7 with content 4. *)
Definition case_hist : json :=
  JObj [(b "E_bin_lefts", JArr [JInt 1; JInt 3]); (b "Emax", JInt 7); (b "type", JStr (b "hist")); (b "weights", JArr [JInt 2; JInt 4])].
Example C53_histogram_case : exists s, described case_hist 12 s /\ named case_hist ["hist"; "histogram"] /\
  vector case_hist "E_bin_lefts" [1; 3] /\ vector case_hist "weights" [2; 4] /\ entry case_hist "Emax" None = Some 7.
Proof.
  assert (N : forall n, In n [1; 2; 3; 4; 7]%Z -> numeric (JInt n) = Some (IZR n)).
  { intros n HI. cbn [numeric]. f_equal. cbn [In] in HI. repeat (destruct HI as [<-|HI]; [match goal with |- dbl_R ?d = _ => let v := eval vm_compute in d in change d with v end; apply dbl_exact; vm_compute; reflexivity|]). destruct HI. }
  assert (V1 : vector case_hist "E_bin_lefts" [1; 3]) by (eexists; split; [reflexivity|]; repeat constructor; apply N; cbn [In]; tauto).
  assert (V2 : vector case_hist "weights" [2; 4]) by (eexists; split; [reflexivity|]; repeat constructor; apply N; cbn [In]; tauto).
  assert (E : entry case_hist "Emax" None = Some 7) by (unfold entry; change (held case_hist "Emax") with (Some (JInt 7)); cbv iota; apply N; cbn [In]; tauto).
  assert (T : named case_hist ["hist"; "histogram"]) by (exists "hist"; split; [left; reflexivity|vm_compute; reflexivity]).
  destruct (C40_accepts 12 (mkgrid IConstant EZero [(1, 1); (3, 1); (7, 0)])) as [A _].
  assert (G : make_grid_source_xy 12 ([1; 3] ++ [7]) ([1; 1] ++ [0]) IConstant = Ok (GridSource 12 (mkgrid IConstant EZero (map lift_zero [(1, 1); (3, 1); (7, 0)])))).
  { apply A. cbn [g_pts g_im g_em map sumR snd List.length]. split; [reflexivity|]. split; [left; reflexivity|]. split; [lia|]. split; [|lra]. repeat constructor; cbn [fst snd]; lra. }
  eexists. split; [|auto]. refine (is_hist _ _ [1; 3] [2; 4] 7 [1; 1] _ T V1 V2 E ltac:(lra) _ G). cbn [app densities]. repeat split; lra.
Qed.
