(** A concrete run for the theorems about whole events. *)
From Coq Require Import List ZArith Reals Bool Lia Lra.
From Verif Require Import Base Pdg PdgThms React Kin KinSpec KinThms Sample SampleProofs NucReact NucSpec NucProofs NucThms NucEventThms
  Mass Decay DecaySpec DeexSpec DeexProofs DeexThms DeexCases Rot RotSpec RotThms Target Gen GenThms Run RunThms.
Import ListNotations.
Open Scope R_scope.

Definition run_mes : list rme := [mkrme 0 1 1 None].
Definition run_mode : mode := MNuc (ex_nuc run_mes) (fun _ => 1).
Definition run_source : nsource := mknsource 12 15 15 (fun E => if Req_EM_T E 15 then 1 else 0).
Definition run_gs (b : Z) : res (Z * bool) := Ok (0%Z, true).
Definition run_hd (_ : nat) : hdraw := mkhd (1 / 2) (1 / 2) (1 / 2) (1 / 2) (1 / 2).
Definition run_d : run_draws := mkrun (fun _ => (1 / 2, 1 / 2)) 1 (1 / 2) ex_draws run_hd (fun _ => (1 / 2, 1 / 2, 1 / 2)) 0 0.
Definition run_ops : list uop := [USource (Some run_source); UDirection (mkv 1 2 3); UAdd (Some run_mode)].

Lemma run_xs : exists w, 0 < w /\ partial_xs (ex_nuc run_mes) (fun _ => 1) 15 None run_mes = Ok [w] /\ nuc_total_xs (ex_nuc run_mes) (fun _ => 1) 12 15 = Ok w.
Proof.
  destruct (ex_xs run_mes (mkrme 0 1 1 None)) as (w & b & Ew & Hw); [cbn [me_str]; lra|reflexivity|unfold me_energy; cbn [me_lev me_en]; lra|].
  assert (EP : partial_xs (ex_nuc run_mes) (fun _ => 1) 15 None run_mes = Ok [w]).
  { unfold run_mes at 2. cbn [partial_xs]. rewrite ex_max. unfold me_energy. cbn [me_lev me_en me_str].
    destruct (Rlt_dec 8 0) as [C|_]; [exfalso; lra|]. destruct (Req_EM_T 1 0) as [C|_]; [exfalso; lra|]. rewrite Ew. reflexivity. }
  exists w. split; [exact Hw|]. split; [exact EP|]. unfold nuc_total_xs, summed_xs. cbn [ex_nuc n_r ex_reaction r_a Z.eqb Pos.eqb negb]. destruct (Rle_dec 15 0); [exfalso; lra|].
  fold (ex_nuc run_mes). cbn [ex_nuc n_mes]. fold (ex_nuc run_mes). rewrite EP. cbn [bind sumR]. f_equal. lra.
Qed.

Lemma run_mode_ok : mode_ok run_mode.
Proof.
  cbn [run_mode mode_ok]. split; [apply ex_masses; repeat constructor; unfold me_energy; cbn [me_lev me_en]; lra|]. split; [cbn [ex_nuc n_mdgs]; lra|].
  split; [repeat constructor; cbn [me_str]; lra|]. split; [apply C59_factor; [cbn [ex_nuc n_mc]; lra|intros; lra]|].
  exists NC, 18%Z, 40%Z. eexists. split; [unfold nuclide; lia|]. split; [vm_compute; reflexivity|]. left. reflexivity.
Qed.

(** The hypotheses of C62_event hold for a source of 15 MeV, one neutral-current reaction and
    a direction other than the z axis, and an event is created. *)
Example C62_case : let z := fold_left (ustep case_env run_gs) run_ops fresh_generator in let src := gn_source (z_state z) in
  env_ok case_env /\ Forall good_uop run_ops /\ good_run run_d /\ Forall mode_ok (z_modes z) /\ z_modes z = [run_mode] /\
  good_target (gn_target (z_state z)) /\ 0 < gn_norm (z_state z) /\ (forall x, 0 <= ns_pdf src x) /\ ns_min src <= ns_max src /\
  exists z' ev, create_event case_env run_gs z run_d 1 = (z', Ok ev).
Proof.
  cbv zeta. split; [exact case_ok|]. assert (GU : Forall good_uop run_ops) by (repeat constructor). split; [exact GU|].
  assert (GR : good_run run_d).
  { unfold good_run, run_d, hf_draws, cascade_draws, unit_draw, run_hd. cbn [q_max q_rx q_E q_ev q_hf q_cd q_ct fst snd h_chan h_jpi h_E h_cos h_phi].
    repeat (split; try lra); try apply ex_good; intros; cbn [fst snd]; repeat (split; try lra). }
  split; [exact GR|]. destruct (history case_env run_gs run_ops GU) as (gops & rops & I1 & I2 & I3 & I4 & I5 & I6 & I7). cbv zeta in *.
  set (z := fold_left (ustep case_env run_gs) run_ops fresh_generator) in *. cbn [run_ops fold_left want_modes app] in I4.
  assert (SL : slots (z_state z)) by (rewrite I1; apply reach_slots).
  rewrite I4. split; [constructor; [exact run_mode_ok|constructor]|]. split; [reflexivity|].
  destruct run_xs as (w & Hw & EP & ET).
  assert (XS : x_xs (mode_rxn run_mode) 12 15 = w) by (cbn [run_mode mode_rxn x_xs]; rewrite ET; reflexivity).
  assert (ST : gn_target (z_state z) = None /\ gn_source (z_state z) = run_source /\ gn_weight (z_state z) = true /\ gn_norm (z_state z) = w).
  { assert (DR : exists o, z = mkgen [run_mode] (fst (add_reaction (fst (set_source new_generator (Some run_source))) (Some (mode_rxn run_mode)))) o true).
    { unfold z, run_ops. cbn [fold_left ustep z_state z_modes z_rot z_deex fresh_generator app].
      destruct (set_direction _ _) as [o|]; cbn [z_state z_modes z_rot z_deex]; eexists; reflexivity. }
    destruct DR as [o ->]. cbn [z_state]. unfold set_source. cbn [gn_rx new_generator]. cbn [fst]. unfold add_reaction.
    set (g1 := mkgstate _ _ _ _ _ _ _ _ _). assert (S1 : slots g1) by reflexivity. destruct (normalize_keeps g1 S1) as (_ & _ & K3 & K4 & K5 & _).
    rewrite K3, K4, K5. split; [reflexivity|]. split; [reflexivity|]. split; [reflexivity|].
    unfold Gen.normalize. change (gn_hold g1) with false. cbv iota zeta.
    change (ns_min (gn_source (set_norm (set_max g1 (gn_default g1)) 1))) with 15. change (ns_max (gn_source (set_norm (set_max g1 (gn_default g1)) 1))) with 15.
    rewrite (E_pdf_ok _ _ (eq_refl : slots (set_norm (set_max g1 (gn_default g1)) 1))). cbv zeta. destruct (Req_EM_T 15 15); [|lra]. cbn [fst set_norm gn_norm].
    change (gn_weight (set_norm (set_max g1 (gn_default g1)) 1)) with true. cbv iota.
    change (gn_rx (set_norm (set_max g1 (gn_default g1)) 1)) with [mode_rxn run_mode]. change (gn_source (set_norm (set_max g1 (gn_default g1)) 1)) with run_source.
    cbn [map sumR]. unfold weighted_xs. change (gn_target (set_norm (set_max g1 (gn_default g1)) 1)) with (@None target). cbv iota.
    change (ns_pid (gn_source (set_norm (set_max g1 (gn_default g1)) 1))) with 12%Z. rewrite XS. unfold run_source at 1. cbn [ns_pdf]. destruct (Req_EM_T 15 15); [|lra].
    change (gn_norm (set_max g1 (gn_default g1))) with 1 || idtac. field. }
  destruct ST as (T1 & T2 & T3 & T4). rewrite T1, T2, T4. split; [exact Logic.I|]. split; [exact Hw|].
  split; [intros x; cbn [run_source ns_pdf]; destruct (Req_EM_T x 15); lra|]. split; [cbn [run_source ns_min ns_max]; lra|].
  assert (RX : gn_rx (z_state z) = [mode_rxn run_mode]) by (rewrite I5, I4; reflexivity).
  assert (WX : weighted_xs (z_state z) 15 (mode_rxn run_mode) = w) by (unfold weighted_xs; rewrite T1, T2; cbn [run_source ns_pid]; exact XS).
  assert (ED : E_density (z_state z) 15 = 1).
  { unfold E_density. rewrite (E_pdf_ok _ _ SL). cbv zeta. rewrite T3, T2, T4, RX. cbn [map sumR]. rewrite WX. cbn [run_source ns_pdf]. destruct (Req_EM_T 15 15); [|lra]. field. lra. }
  assert (EMX : gn_max (z_state z) = None).
  { assert (DR : exists o, z = mkgen [run_mode] (fst (add_reaction (fst (set_source new_generator (Some run_source))) (Some (mode_rxn run_mode)))) o true).
    { unfold z, run_ops. cbn [fold_left ustep z_state z_modes z_rot z_deex fresh_generator app].
      destruct (set_direction _ _) as [o|]; cbn [z_state z_modes z_rot z_deex]; eexists; reflexivity. }
    destruct DR as [o ->]. cbn [z_state]. unfold set_source. cbn [gn_rx new_generator]. cbn [fst]. unfold add_reaction.
    set (g1 := mkgstate _ _ _ _ _ _ _ _ _). unfold Gen.normalize. change (gn_hold g1) with false. cbv iota zeta.
    rewrite (E_pdf_ok _ _ (eq_refl : slots (set_norm (set_max g1 (gn_default g1)) 1))). reflexivity. }
  assert (ES : exists g', sample_reaction (z_state z) default_safety (q_max run_d) (q_E run_d) (q_rx run_d) 1 = Ok (g', 15, 0%nat) /\ gn_source g' = run_source).
  { unfold sample_reaction. rewrite RX, T2, EMX. cbn [run_source ns_min ns_max run_d q_max q_E q_rx]. unfold rejection_sample. cbn [rejection fst snd]. cbv zeta.
    assert (U : uniform 15 15 (1 / 2) = 15) by (unfold uniform; lra). rewrite U, ED. destruct (Rlt_dec 1 (uniform 0 (1 * default_safety) (1 / 2))) as [C|_]; [exfalso; unfold uniform, default_safety in C; lra|].
    cbn [bind]. rewrite (E_pdf_ok _ _ SL). cbn [bind]. cbv zeta. rewrite RX. cbn [map].
    pose proof (discrete_lt [weighted_xs (z_state z) 15 (mode_rxn run_mode)] (1 / 2) ltac:(discriminate)) as L. cbn [List.length] in L.
    assert (D0 : discrete [weighted_xs (z_state z) 15 (mode_rxn run_mode)] (1 / 2) = 0%nat) by lia. rewrite D0. cbn [List.length Nat.ltb Nat.leb].
    eexists. split; [reflexivity|]. exact T2. }
  destruct ES as (g' & ES & ESs). unfold create_event. rewrite ES, I4. cbn [nth_error]. rewrite ESs. cbn [run_source ns_pid].
  assert (HN : nth_error run_mes (discrete [w] (1 / 2)) = Some (mkrme 0 1 1 None)).
  { pose proof (discrete_lt [w] (1 / 2) ltac:(discriminate)) as L. cbn [List.length] in L. replace (discrete [w] (1 / 2)) with 0%nat by lia. reflexivity. }
  destruct (ex_created run_mes (mkrme 0 1 1 None) w []) as (ev & E & EX);
    [repeat constructor; unfold me_energy; cbn [me_lev me_en]; lra|repeat constructor; right; reflexivity|exact EP|cbn [sumR]; lra|exact HN|reflexivity|].
  assert (FE : full_event case_env run_gs (z_deex z) run_mode 12 15 run_d 1 = Ok ev).
  { unfold full_event. change (mode_event case_env run_gs run_mode 12 15 (q_ev run_d) 1) with (nuc_create (ex_nuc run_mes) (fun _ => 1) (Ok (0%Z, true)) (fun _ _ _ => 1) 12 15 ex_draws 1). rewrite E. cbn [bind].
    destruct (z_deex z); [|reflexivity]. apply (proj1 (C33_trivial _ _ _ _ _)). rewrite EX. reflexivity. }
  rewrite FE. pose proof (full_spec _ _ _ _ _ _ _ _ _ case_ok run_mode_ok GR FE) as HB.
  destruct (rotation_made rops (q_ct run_d) (q_phi run_d) run_mode _ _ ev I3 (proj2 (proj2 (proj2 (proj2 (proj2 (proj2 GR)))))) HB) as (o' & ev' & EPr & _).
  rewrite I2, EPr. eexists _, _. reflexivity.
Qed.

(** And so do those of C62_fixed, also after an earlier call with another direction. *)
Example C62_fixed_case : let z := mkgen [run_mode] (mkgstate [mode_rxn run_mode] [0] run_source None true 1 false None None) default_rotator true in
  Forall mode_ok (z_modes z) /\ gn_rx (z_state z) = map mode_rxn (z_modes z) /\
  exists o' ev, create_event_for case_env run_gs z (rot_run default_rotator [SetDir (mkv 1 0 0)]) 12 15 1000180400 (mkv 1 2 3) run_d 1 = (o', Ok ev).
Proof.
  cbv zeta. split; [constructor; [exact run_mode_ok|constructor]|]. split; [reflexivity|]. destruct run_xs as (w & Hw & EP & ET).
  assert (XS : x_xs (mode_rxn run_mode) 12 15 = w) by (cbn [run_mode mode_rxn x_xs]; rewrite ET; reflexivity).
  unfold create_event_for. cbn [z_state z_modes z_deex]. set (g := mkgstate _ _ _ _ _ _ _ _ _).
  pose proof (C35_pick g 12 15 1000180400 (q_rx run_d) ltac:(cbn [run_d q_rx]; lra)) as P. destruct (pick_reaction g 12 15 1000180400 (q_rx run_d)) as [i|].
  2:{ exfalso. destruct P as [_ P]. apply (P (mode_rxn run_mode)); [left; reflexivity|reflexivity|reflexivity|lra]. }
  destruct P as (r & P1 & _). cbn [g gn_rx] in P1. destruct i as [|[|i]]; [|discriminate|discriminate]. cbn [nth_error].
  assert (HN : nth_error run_mes (discrete [w] (1 / 2)) = Some (mkrme 0 1 1 None)).
  { pose proof (discrete_lt [w] (1 / 2) ltac:(discriminate)) as L. cbn [List.length] in L. replace (discrete [w] (1 / 2)) with 0%nat by lia. reflexivity. }
  destruct (ex_created run_mes (mkrme 0 1 1 None) w []) as (ev & E & EX);
    [repeat constructor; unfold me_energy; cbn [me_lev me_en]; lra|repeat constructor; right; reflexivity|exact EP|cbn [sumR]; lra|exact HN|reflexivity|].
  assert (FE : full_event case_env run_gs true run_mode 12 15 run_d 1 = Ok ev).
  { unfold full_event. change (mode_event case_env run_gs run_mode 12 15 (q_ev run_d) 1) with (nuc_create (ex_nuc run_mes) (fun _ => 1) (Ok (0%Z, true)) (fun _ _ _ => 1) 12 15 ex_draws 1). rewrite E. cbn [bind].
    apply (proj1 (C33_trivial _ _ _ _ _)). rewrite EX. reflexivity. }
  rewrite FE. pose proof (set_direction_inv (mkv 1 2 3) (rot_run default_rotator [SetDir (mkv 1 0 0)])) as SD.
  destruct (set_direction (mkv 1 2 3) _) as [o1|] eqn:ED.
  2:{ exfalso. apply (f_equal vx) in SD. cbn [vx vnull] in SD. lra. }
  destruct (process_spec o1 (q_ct run_d) (q_phi run_d) ev SD) as (o' & ev' & EPr & _); [intros _; cbn [run_d q_ct]; lra|]. rewrite EPr. eexists _, _. reflexivity.
Qed.
