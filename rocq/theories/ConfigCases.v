(** Concrete configurations for the theorems about C53. *)
From Coq Require Import List Ascii String ZArith Reals Bool Lia Lra Permutation Sorted.
From Coq Require Import Floats.SpecFloat.
From Verif Require Import Base Dbl Json JsonProofs JsonRtProofs Pdg PdgThms Names React Levels MatEl MatElThms Mass NucReact NucSpec NucEventThms Kin KinSpec Rot RotSpec Sample SampleProofs XReal Grid GridThms Quad Source SourceThms Target TargetThms Gen GenThms
  Decay DecaySpec DeexSpec DeexThms DeexCases NucThms Run RunThms RunCases Config ConfigSpec ConfigProofs ConfigThms ConfigRunThms.
From Verif Require Files RotProofs.
Import ListNotations.
Open Scope string_scope.
Open Scope list_scope.
Open Scope R_scope.

Lemma sum_pos_in (l : list R) x : Forall (fun y => 0 <= y) l -> In x l -> 0 < x -> 0 < sumR l.
Proof.
  induction l as [|y l IH]; intros F HI HX; [destruct HI|]. cbn [sumR]. pose proof (Forall_inv F) as Hy. pose proof (Forall_inv_tail F) as HF. cbv beta in Hy.
  destruct HI as [->|HI]; [|specialize (IH HF HI HX); lra]. assert (0 <= sumR l) by (apply sumR_nonneg; exact HF). lra.
Qed.

(** A configuration without a target, and with a source of one energy at which one of the
    reactions is possible, is accepted. *)
Lemma created c j o src w x ms names :
  (forall k, In k ["seed"; "fragment_lmax"; "gamma_lmax"; "target"; "do_deexcitations"; "coulomb_mode"] -> held j k = None) ->
  prepare_direction j start = Ok (building default_source true None [] None o true) ->
  prepare_source j (building default_source true None [] None o true) = Ok (building src w None [] None o true) ->
  held j "reactions" = Some (JArr names) -> names <> [] -> load_files c names [] (building src w None [] None o true) = Ok (building src w None ms None o true) ->
  (forall m, In m ms -> exists s, atom_name (x_atom (mode_rxn m)) = Ok s) ->
  ns_min src = x -> ns_max src = x -> 0 < ns_pdf src x ->
  (forall m, In m ms -> 0 <= x_xs (mode_rxn (with_cmode FermiAndMEMA m)) (ns_pid src) x) ->
  (exists m, In m ms /\ x_proj (mode_rxn m) = ns_pid src /\ 0 < x_xs (mode_rxn (with_cmode FermiAndMEMA m)) (ns_pid src) x) ->
  exists k, create_generator c j = Ok k /\ z_modes (k_gen k) = map (with_cmode FermiAndMEMA) ms /\ gn_source (z_state (k_gen k)) = src /\ z_rot (k_gen k) = o /\
    gn_max (z_state (k_gen k)) = None /\ E_density (z_state (k_gen k)) x = 1.
Proof.
  intros HA HD HS HR HN HL NM H1 H2 H3 H4 (m0 & M1 & M2 & M3).
  assert (AB : forall k, In k ["seed"; "fragment_lmax"; "gamma_lmax"; "target"; "do_deexcitations"; "coulomb_mode"] -> has_key (b k) j = false) by (intros k HK; rewrite has_value, (HA k HK); reflexivity).
  unfold create_generator. rewrite (AB "seed") by (cbn [In]; tauto). cbn [bind]. rewrite start_eq. cbv zeta. rewrite HD. cbn [bind].
  unfold setting. rewrite (AB "fragment_lmax"), (AB "gamma_lmax") by (cbn [In]; tauto). cbn [bind]. rewrite HS. cbn [bind].
  unfold prepare_reactions. rewrite (has_value "reactions" j), HR, (at_value _ _ _ HR). cbn [bind]. destruct names as [|nm names]; [contradiction|]. rewrite HL. cbn [bind].
  set (rx := map mode_rxn ms) in *. assert (NR : In (mode_rxn m0) rx) by (apply in_map; exact M1).
  assert (TT : exists t, make_target (ce_warn c) (atom_set rx) (map (fun _ => 1) (atom_set rx)) = Ok t).
  { apply C48_accepts. destruct (atom_set_spec rx) as [A ND]. split; [rewrite map_length; reflexivity|]. split; [apply Forall_forall; intros y HY; apply in_map_iff in HY; destruct HY as (z & <- & _); lra|].
    split; [|split; [exact ND|]].
    - rewrite sum_ones. apply lt_0_INR. assert (IA : In (x_atom (mode_rxn m0)) (atom_set rx)) by (apply A, in_map; exact NR). destruct (atom_set rx); [destruct IA|cbn [List.length]; lia].
    - intros _. apply Forall_forall. intros [a f] HI E. cbn [snd] in E. apply in_combine_r in HI. apply in_map_iff in HI. destruct HI as (z & X & _). cbv beta in X. lra. }
  destruct TT as [t TT]. pose proof (C48_fractions _ _ _ _ TT) as (F1 & _ & FP & _ & _ & F6 & _).
  unfold prepare_target. cbv zeta. rewrite (AB "target") by (cbn [In]; tauto). cbn [negb]. change (gn_rx (z_state (building src w None ms None o true))) with rx.
  replace (match rx with [] => Ok (building src w None ms None o true) | _ :: _ => _ end) with (Ok (building src w None ms (Some t) o true)).
  2:{ destruct rx as [|r0 rx'] eqn:ER; [destruct NR|]. rewrite <- ER in *. rewrite TT. cbn [bind].
      assert (NA : forall y s, t = y :: s -> exists q, atom_name (fst y) = Ok q).
      { intros [a f] s ->. cbn [fst]. assert (IA : In a (atom_set rx)) by (apply (Permutation_in _ FP); left; reflexivity). apply (proj1 (atom_set_spec rx)) in IA. apply in_map_iff in IA. destruct IA as (r & <- & IR).
        unfold rx in IR. apply in_map_iff in IR. destruct IR as (m & <- & IM). exact (NM m IM). }
      destruct (ce_info c && has_single_nuclide t)%bool; cbn [bind].
      2:{ unfold set_target. cbn [z_state building gn_rx]. unfold normalize, with_state, building. cbn [gn_hold z_modes z_rot z_deex z_state gn_source gn_rx gn_xs gn_target gn_weight gn_norm gn_default gn_max]. fold rx. rewrite ER. reflexivity. }
      destruct t as [|[a f] s] eqn:ET; [|destruct (NA (a, f) s eq_refl) as [q Q]; cbn [fst] in Q; rewrite Q]; cbn [bind]; unfold set_target; cbn [z_state building gn_rx]; unfold normalize, with_state, building; cbn [gn_hold z_modes z_rot z_deex z_state gn_source gn_rx gn_xs gn_target gn_weight gn_norm gn_default gn_max]; fold rx; rewrite ER; reflexivity. }
  cbn [bind]. rewrite (AB "do_deexcitations") by (cbn [In]; tauto). cbn [bind]. unfold coulomb_mode. rewrite (AB "coulomb_mode") by (cbn [In]; tauto). cbn [bind].
  unfold set_cmode. cbn [z_modes z_state z_rot z_deex building gn_source gn_rx gn_xs gn_target gn_weight gn_norm gn_hold gn_default gn_max]. set (ms' := map (with_cmode FermiAndMEMA) ms).
  assert (EX : existsb (fun r => Z.eqb (ns_pid src) (x_proj r)) (map mode_rxn ms') = true).
  { apply existsb_exists. exists (mode_rxn (with_cmode FermiAndMEMA m0)). split; [apply in_map, in_map; exact M1|]. apply Z.eqb_eq. rewrite <- M2. destruct m0; reflexivity. }
  rewrite EX. cbn [negb].
  assert (DS : forall z l, gn_target (z_state z) = Some t -> (forall m, In m l -> exists s, atom_name (x_atom (mode_rxn m)) = Ok s) -> describe z l = Ok tt).
  { intros z l ET. induction l as [|m l IH]; intros HM; [reflexivity|]. cbn [describe]. rewrite ET. cbv zeta. destruct (HM m (or_introl eq_refl)) as [q Q].
    destruct ((_ && _)%bool); cbn [bind]; [|apply IH; intros; apply HM; right; assumption]. destruct (r_proc (mode_reaction m)); try rewrite Q; cbn [bind]; apply IH; intros; apply HM; right; assumption. }
  rewrite DS; [|reflexivity|].
  2:{ intros m HI. apply in_map_iff in HI. destruct HI as (m' & <- & HI). destruct (NM m' HI) as [q Q]. exists q. rewrite <- Q. destruct m'; reflexivity. }
  cbn [bind]. unfold set_hold. cbn [z_modes z_state z_rot z_deex gn_source gn_rx gn_xs gn_target gn_weight gn_norm gn_hold gn_default gn_max].
  match goal with |- context [normalize ?g] => set (g0 := g) end.
  assert (SL : slots (set_norm (set_max g0 (gn_default g0)) 1)) by (unfold slots; cbn [set_norm set_max g0 gn_xs gn_rx]; unfold ms'; rewrite !map_length; reflexivity).
  assert (NZ : exists g, normalize g0 = (g, Ok tt) /\ gn_max g = None /\ E_density g x = 1).
  { unfold normalize. change (gn_hold g0) with false. cbv iota zeta. change (ns_min (gn_source (set_norm (set_max g0 (gn_default g0)) 1))) with (ns_min src). change (ns_max (gn_source (set_norm (set_max g0 (gn_default g0)) 1))) with (ns_max src).
    rewrite H1, H2. destruct (Req_EM_T x x) as [_|X]; [|contradiction]. rewrite (E_pdf_ok _ _ SL). cbv zeta. set (sm := sumR _).
    assert (SP : 0 < sm).
    { assert (WN : forall m, In m ms -> 0 <= weighted_xs (set_norm (set_max g0 (gn_default g0)) 1) x (mode_rxn (with_cmode FermiAndMEMA m))).
      { intros m HI. unfold weighted_xs. cbn [set_norm set_max g0 gn_target gn_source]. apply Rmult_le_pos; [exact (H4 m HI)|]. unfold atom_fraction. destruct (assoc _ t) as [f|] eqn:EA; [|lra].
        rewrite Forall_forall in F6. assert (HA' : exists a, In (a, f) t) by (clear - EA; induction t as [|[k v] t IH]; [discriminate|]; cbn [assoc] in EA; destruct (Z.eqb _ k); [injection EA as <-; eexists; left; reflexivity|destruct (IH EA) as [a HA]; exists a; right; exact HA]).
        destruct HA' as [a HA']. exact (F6 _ HA'). }
      apply (sum_pos_in _ (weighted_xs (set_norm (set_max g0 (gn_default g0)) 1) x (mode_rxn (with_cmode FermiAndMEMA m0)))).
      - apply Forall_forall. intros y HY. apply in_map_iff in HY. destruct HY as (r & <- & HY). apply in_map_iff in HY. destruct HY as (m & <- & HY). apply in_map_iff in HY. destruct HY as (m' & <- & HY). exact (WN m' HY).
      - apply in_map. apply in_map. apply in_map. exact M1.
      - unfold weighted_xs. cbn [set_norm set_max g0 gn_target gn_source]. apply Rmult_lt_0_compat; [exact M3|]. destruct (atom_set_spec rx) as [A _].
        assert (IA : In (x_atom (mode_rxn (with_cmode FermiAndMEMA m0))) (atom_set rx)) by (apply A; replace (x_atom (mode_rxn (with_cmode FermiAndMEMA m0))) with (x_atom (mode_rxn m0)) by (destruct m0; reflexivity); apply in_map; exact NR).
        destruct (In_nth_error _ _ IA) as [i Hi]. rewrite (F1 i _ 1 Hi) by (apply map_nth_error with (f := fun _ => 1) in Hi; exact Hi). rewrite sum_ones. apply Rdiv_lt_0_compat; [lra|]. apply lt_0_INR. destruct (atom_set rx); [destruct IA|cbn [List.length]; lia]. }
    change (ns_pdf (gn_source (set_norm (set_max g0 (gn_default g0)) 1)) x) with (ns_pdf src x). change (gn_norm (set_norm (set_max g0 (gn_default g0)) 1)) with 1.
    change (gn_weight (set_norm (set_max g0 (gn_default g0)) 1)) with w.
    assert (ED : forall n xs, List.length xs = List.length (gn_rx g0) -> E_density (set_norm (set_xs (set_norm (set_max g0 (gn_default g0)) 1) xs) n) x = if w then sm * ns_pdf src x / n else if Rle_dec sm 0 then 0 else ns_pdf src x / n).
    { intros n xs HX. unfold E_density. match goal with |- context [E_pdf ?g x] => rewrite (E_pdf_ok g x HX) end. cbv zeta. fold sm. destruct w; reflexivity. }
    assert (LX : List.length (map (weighted_xs (set_norm (set_max g0 (gn_default g0)) 1) x) (gn_rx (set_norm (set_max g0 (gn_default g0)) 1))) = List.length (gn_rx g0)) by (rewrite map_length; reflexivity).
    destruct w.
    - replace (sm * ns_pdf src x / 1) with (sm * ns_pdf src x) by field. assert (PP : 0 < sm * ns_pdf src x) by (apply Rmult_lt_0_compat; assumption). destruct (Rle_dec _ 0) as [L|L]; [exfalso; lra|]. eexists. split; [reflexivity|]. split; [reflexivity|].
      rewrite (ED _ _ LX). field. lra.
    - destruct (Rle_dec sm 0) as [L|L]; [exfalso; lra|]. replace (ns_pdf src x / 1) with (ns_pdf src x) by field. destruct (Rle_dec _ 0) as [L'|L']; [exfalso; lra|]. eexists. split; [reflexivity|]. split; [reflexivity|].
      rewrite (ED _ _ LX). destruct (Rle_dec sm 0); [contradiction|]. field. lra. }
  destruct NZ as (g & NZ & NM1 & NM2). rewrite NZ. cbn [bind]. eexists. split; [reflexivity|]. cbn [k_gen with_state z_modes z_state z_rot]. split; [reflexivity|]. split; [|auto].
  destruct (normalized_same g0 g) as (_ & -> & _); [exact SL|exact NZ|reflexivity].
Qed.

(** Electron scattering on argon, and on argon and oxygen together. *)
Definition ar : bytes := b "3 1000180400".
Definition aro : bytes := b "3 1000180400 1000080160".
Definition ox : bytes := b "3 1000080160".
Definition case_files : Files.files :=
  Files.mkfiles (fun n => existsb (bytes_eqb n) [b "ar.react"; b "aro.react"; b "ox.react"]) (fun _ => None)
    (fun n => if bytes_eqb n (b "ar.react") then ar else if bytes_eqb n (b "aro.react") then aro else ox).
Definition case_mt : mtab := mkmt [(11%Z, 548); (12%Z, 0); (14%Z, 0); (16%Z, 0)] [].
Definition case_cenv : cenv := mkcenv case_files [] no_data case_mt (fun _ _ => 1) true true.

Definition nu : R := micro_amu * 0.
Definition me : R := micro_amu * 548.
Definition el (g1 g2 : R) (z atom a : Z) : mode := MEl (mkel (mkr NuElectronElastic a 11 a 11 0 (-1) 0 (-1)) (mkmass nu me nu me) g1 g2 z) atom.
Definition on_atom (z atom : Z) : list mode :=
  [el (1 / 2 + sin2thetaw) sin2thetaw z atom 12; el (- (1 / 2) + sin2thetaw) sin2thetaw z atom 14; el (- (1 / 2) + sin2thetaw) sin2thetaw z atom 16;
   el sin2thetaw (1 / 2 + sin2thetaw) z atom (-12); el sin2thetaw (- (1 / 2) + sin2thetaw) z atom (-14); el sin2thetaw (- (1 / 2) + sin2thetaw) z atom (-16)].

Definition el_codes (z : Z) : list (Z * reaction) := map (fun a => (z, mkr NuElectronElastic a 11 a 11 0 (-1) 0 (-1))) [12; 14; 16; -12; -14; -16]%Z.
Lemma load_electron text ts : MatEl.load no_data text = Ok (Electron (flat_map el_codes ts)) ->
  load_modes case_cenv text = Ok (flat_map (fun z => on_atom (particle_Z z) z) ts).
Proof.
  intros H. unfold load_modes. change (ce_nd case_cenv) with no_data. rewrite H. cbn [bind]. change (ce_mt case_cenv) with case_mt. clear H.
  induction ts as [|z ts IH]; [reflexivity|]. cbn [flat_map]. unfold el_codes at 1. cbn [map app map_res].
  assert (M : forall a g, In a [12; 14; 16; -12; -14; -16]%Z -> couplings a = Ok g -> make_electron case_mt (z, mkr NuElectronElastic a 11 a 11 0 (-1) 0 (-1)) = Ok (el (fst g) (snd g) (particle_Z z) z a)).
  { intros a [g1 g2] HI HC. unfold make_electron. cbn [fst snd r_a]. unfold new_electron_reaction. rewrite HC. repeat (destruct HI as [<-|HI]; [reflexivity|]). destruct HI. }
  rewrite (M 12%Z _ ltac:(cbn [In]; tauto) eq_refl), (M (-12)%Z _ ltac:(cbn [In]; tauto) eq_refl), (M 14%Z _ ltac:(cbn [In]; tauto) eq_refl), (M (-14)%Z _ ltac:(cbn [In]; tauto) eq_refl), (M 16%Z _ ltac:(cbn [In]; tauto) eq_refl), (M (-16)%Z _ ltac:(cbn [In]; tauto) eq_refl).
  cbn [bind]. rewrite IH. reflexivity.
Qed.

Lemma load_ar : load_modes case_cenv ar = Ok (on_atom 18 1000180400).
Proof. rewrite (load_electron ar [1000180400%Z]) by (vm_compute; reflexivity). reflexivity. Qed.
Lemma load_aro : load_modes case_cenv aro = Ok (on_atom 18 1000180400 ++ on_atom 8 1000080160).
Proof. rewrite (load_electron aro [1000180400%Z; 1000080160%Z]) by (vm_compute; reflexivity). reflexivity. Qed.
Lemma load_ox : load_modes case_cenv ox = Ok (on_atom 8 1000080160).
Proof. rewrite (load_electron ox [1000080160%Z]) by (vm_compute; reflexivity). reflexivity. Qed.

Lemma sane_case : sane_table case_mt.
Proof.
  assert (G : forall p m, particle_mass case_mt p = Ok m -> 0 <= m).
  { intros p m. unfold particle_mass, part_at, case_mt. cbn [t_part assoc]. cbv zeta. set (i := if Z.ltb p 0 then (p * -1)%Z else p). clearbody i.
    repeat (destruct (Z.eqb i _); [intros H; injection H as <-; unfold micro_amu; lra|]). discriminate. }
  split; [exact G|]. intros m H. injection H as <-. unfold micro_amu. lra.
Qed.

Lemma el_xs_pos x : 0 < x -> forall z atom, (0 < z)%Z -> 0 < x_xs (mode_rxn (el (1 / 2 + sin2thetaw) sin2thetaw z atom 12)) 12 x.
Proof.
  intros HX z atom HZ. unfold el. cbn [mode_rxn x_xs]. unfold el_total_xs. cbn [l_r r_a Z.eqb Pos.eqb negb l_k k_ma k_mb k_mc k_md l_g1 l_g2 l_Z].
  assert (N0 : nu = 0) by (unfold nu; ring). rewrite N0. assert (MP : 0 < me) by (unfold me, micro_amu; lra).
  set (l := mkel _ _ _ _ _). assert (TH : el_threshold l = 0) by (unfold el_threshold, threshold, l; cbn [l_k k_ma k_mb k_mc k_md]; field; lra).
  rewrite TH. destruct (Rlt_dec x 0); [exfalso; lra|]. cbv zeta.
  assert (ES : el_s l x = me ^ 2 + 2 * me * x) by (unfold el_s, l; cbn [l_k k_ma k_mb]; ring).
  assert (SP : 0 < el_s l x) by (rewrite ES; nra).
  assert (EC : 0 < el_Ec l x).
  { unfold el_Ec. cbn [l l_k k_mc k_md]. apply Rdiv_lt_0_compat; [fold l; rewrite ES; nra|]. pose proof (sqrt_lt_R0 _ SP). fold l. lra. }
  assert (RR : 0 < me * me / el_s l x < 1) by (split; [apply Rdiv_lt_0_compat; [nra|exact SP]|apply (Rmult_lt_reg_r (el_s l x)); [exact SP|]; unfold Rdiv; rewrite Rmult_assoc, Rinv_l by lra; rewrite ES; nra]).
  set (r := me * me / el_s l x) in *. clearbody r. unfold sin2thetaw.
  apply Rmult_lt_0_compat; [|apply IZR_lt; exact HZ]. apply Rmult_lt_0_compat; [|nra]. apply Rmult_lt_0_compat; [apply Rdiv_lt_0_compat; [lra|exact PI_RGT_0]|]. apply pow_lt. apply Rmult_lt_0_compat; [unfold GF; lra|exact EC].
Qed.

Lemma el_ok g1 g2 z atom a : (0 <= z)%Z -> couplings a = Ok (g1, g2) -> In a [12; 14; 16; -12; -14; -16]%Z -> mode_ok (el g1 g2 z atom a).
Proof.
  intros HZ HC HI. exists (fun p => match particle_mass case_mt p with Ok m => m | Er _ => 0 end), a, z. split; [|split; [exact HZ|split]].
  - unfold new_electron_reaction. rewrite HC. repeat (destruct HI as [<-|HI]; [reflexivity|]). destruct HI.
  - intros p. destruct (particle_mass case_mt p) eqn:E; [exact (proj1 sane_case _ _ E)|lra].
  - exact (proj2 sane_case _ eq_refl).
Qed.
Lemma on_atom_ok z atom x : (0 <= z)%Z -> particle_Z atom = z -> Forall (fun m => sane_mode m /\ mode_ok (with_cmode x m)) (on_atom z atom).
Proof.
  intros HZ HA. repeat apply Forall_cons; try apply Forall_nil; (split; [cbn [el sane_mode]; lia|]; apply el_ok; [exact HZ|reflexivity|cbn [In]; tauto]).
Qed.
Lemma on_atom_facts z atom m : In m (on_atom z atom) -> x_atom (mode_rxn m) = atom /\ forall x, with_cmode x m = m.
Proof. intros HI. unfold on_atom in HI. repeat (destruct HI as [<-|HI]; [split; reflexivity|]). destruct HI. Qed.

(** A configuration in a file, as it is parsed. *)
Definition case_json (names : list string) : json :=
  JObj [(b "direction", JObj [(b "x", JInt 3); (b "z", JInt 4)]); (b "reactions", JArr (map (fun n => JStr (b n)) names));
        (b "source", JObj [(b "energy", JInt 10); (b "neutrino", JStr (b "ve")); (b "type", JStr (b "mono"))])].

Lemma dbl_exact m k n : (Zpos m = n * 2 ^ Zpos k)%Z -> dbl_R (S754_finite false m (Zneg k)) = IZR n.
Proof.
  intros H. unfold dbl_R. rewrite H, mult_IZR. unfold powerRZ. replace (IZR (2 ^ Zpos k)) with (2 ^ Pos.to_nat k) by (rewrite pow_IZR, positive_nat_Z; reflexivity). field. apply pow_nonzero. lra.
Qed.
Lemma load_numbers : dbl_R (dbl_of_int 3) = 3 /\ dbl_R (dbl_of_int 4) = 4 /\ dbl_R (dbl_of_int 10) = 10.
Proof.
  repeat split; (match goal with |- dbl_R ?d = _ => let v := eval vm_compute in d in change d with v end); apply dbl_exact; vm_compute; reflexivity.
Qed.

Definition case_src : nsource := mknsource 12 10 10 (fun E => match pdf (Mono 12 10) E with Ok (Fin v) => v | _ => 0 end).

Lemma case_direction names : exists o, prepare_direction (case_json names) start = Ok (building default_source true None [] None o true) /\ o_random o = false /\ o_dir o = unit_of (mkv 3 0 4).
Proof.
  destruct load_numbers as (L3 & L4 & _). unfold prepare_direction. rewrite (has_value "direction"). change (held (case_json names) "direction") with (Some (JObj [(b "x", JInt 3); (b "z", JInt 4)])).
  rewrite (at_value "direction" (case_json names) (JObj [(b "x", JInt 3); (b "z", JInt 4)]) eq_refl). cbn [bind].
  assert (EX : number (b "x") (JObj [(b "x", JInt 3); (b "z", JInt 4)]) (vx (o_dir (z_rot start))) = Ok 3) by (apply number_entry; unfold entry; cbn [held]; change (obj_get (b "x") _) with (Some (JInt 3)); cbn [numeric]; rewrite L3; reflexivity).
  assert (EY : number (b "y") (JObj [(b "x", JInt 3); (b "z", JInt 4)]) (vy (o_dir (z_rot start))) = Ok 0) by (apply number_entry; reflexivity).
  assert (EZ : number (b "z") (JObj [(b "x", JInt 3); (b "z", JInt 4)]) (vz (o_dir (z_rot start))) = Ok 4) by (apply number_entry; unfold entry; cbn [held]; change (obj_get (b "z") _) with (Some (JInt 4)); cbn [numeric]; rewrite L4; reflexivity).
  rewrite EX, EY, EZ. cbn [bind]. destruct (set_direction (mkv 3 0 4) (z_rot start)) as [o|] eqn:ED.
  - exists o. split; [reflexivity|]. destruct (direction_ok _ _ _ ED) as [_ ->]. split; reflexivity.
  - exfalso. unfold set_direction in ED. rewrite RotProofs.normalize_ok in ED by (intros X; apply (f_equal vx) in X; cbn [vx vnull] in X; lra). discriminate.
Qed.

Lemma case_source names o : prepare_source (case_json names) (building default_source true None [] None o true) = Ok (building case_src true None [] None o true).
Proof.
  destruct load_numbers as (_ & _ & L10). unfold prepare_source. rewrite (has_value "energy_pdf_max"). change (held (case_json names) "energy_pdf_max") with (@None json). cbn [bind].
  rewrite (has_value "source"). set (spec := JObj [(b "energy", JInt 10); (b "neutrino", JStr (b "ve")); (b "type", JStr (b "mono"))]). change (held (case_json names) "source") with (Some spec). cbn [negb].
  rewrite (at_value "source" (case_json names) spec eq_refl). cbn [bind]. unfold spec at 1. rewrite (proj2 (text_word "type" spec _ (b "mono"))) by (left; vm_compute; reflexivity). cbn [bind].
  rewrite (proj2 (text_word "neutrino" spec _ (b "ve"))) by (left; vm_compute; reflexivity). cbn [bind].
  replace (neutrino_pdg (b "ve")) with (@Ok Z 12%Z) by (vm_compute; reflexivity). cbn [bind].
  replace (make_source (b "mono") 12 spec) with (Ok (Mono 12 10)).
  2:{ unfold make_source. replace (one_of (b "mono") ["mono"; "monoenergetic"]) with true by (vm_compute; reflexivity). rewrite (proj2 (source_entry "energy" spec 10)) by (unfold entry; change (held spec "energy") with (Some (JInt 10)); cbn [numeric]; rewrite L10; reflexivity).
      cbn [bind]. rewrite (proj2 (positive_ok 10)) by lra. reflexivity. }
  cbn [bind]. rewrite (has_value "weight_flux"). change (held spec "weight_flux") with (@None json). reflexivity.
Qed.

Lemma case_created names ms : names <> [] -> (forall o, load_files case_cenv (map (fun n => JStr (b n)) names) [] (building case_src true None [] None o true) = Ok (building case_src true None ms None o true)) ->
  (forall m, In m ms -> In m (on_atom 18 1000180400) \/ In m (on_atom 8 1000080160)) -> In (el (1 / 2 + sin2thetaw) sin2thetaw 18 1000180400 12) ms ->
  exists k, create_generator case_cenv (case_json names) = Ok k /\ z_modes (k_gen k) = ms /\ gn_source (z_state (k_gen k)) = case_src /\ (exists o, z_rot (k_gen k) = o /\ prepare_direction (case_json names) start = Ok (building default_source true None [] None o true)) /\
    gn_max (z_state (k_gen k)) = None /\ E_density (z_state (k_gen k)) 10 = 1.
Proof.
  intros HN HL HI HE. destruct (case_direction names) as (o & HD & _).
  assert (FX : forall m, In m ms -> (exists s, atom_name (x_atom (mode_rxn m)) = Ok s) /\ with_cmode FermiAndMEMA m = m /\ mode_ok m).
  { intros m HM. destruct (HI m HM) as [H|H]; destruct (on_atom_facts _ _ _ H) as [-> HC].
    - split; [eexists; vm_compute; reflexivity|]. split; [apply HC|]. pose proof (on_atom_ok 18 1000180400 FermiAndMEMA ltac:(lia) eq_refl) as G. rewrite Forall_forall in G. specialize (G m H). rewrite HC in G. apply G.
    - split; [eexists; vm_compute; reflexivity|]. split; [apply HC|]. pose proof (on_atom_ok 8 1000080160 FermiAndMEMA ltac:(lia) eq_refl) as G. rewrite Forall_forall in G. specialize (G m H). rewrite HC in G. apply G. }
  destruct (created case_cenv (case_json names) o case_src true 10 ms (map (fun n => JStr (b n)) names)) as (k & K1 & K2 & K3 & K4 & K5 & K6).
  - intros k HK. cbn [In] in HK. repeat (destruct HK as [<-|HK]; [reflexivity|]). destruct HK.
  - exact HD.
  - apply case_source.
  - reflexivity.
  - destruct names; [contradiction|discriminate].
  - apply HL.
  - intros m HM. apply FX. exact HM.
  - reflexivity.
  - reflexivity.
  - unfold case_src. cbn [ns_pdf pdf]. destruct (Req_EM_T 10 10); [lra|contradiction].
  - intros m HM. destruct (FX m HM) as (_ & -> & OK). apply (C62_sound m OK).
  - eexists. split; [exact HE|]. split; [reflexivity|]. apply el_xs_pos; [lra|lia].
  - exists k. split; [exact K1|]. split; [|split; [exact K3|split; [exists o; split; [exact K4|exact HD]|auto]]]. rewrite K2. transitivity (map (fun m : mode => m) ms); [|apply map_id]. apply map_ext_in. intros m HM. apply FX. exact HM.
Qed.

Lemma case_load n f : In (n, f) [("ar.react", on_atom 18 1000180400); ("aro.react", on_atom 18 1000180400 ++ on_atom 8 1000080160); ("ox.react", on_atom 8 1000080160)] -> file_modes case_cenv (JStr (b n)) = Ok f.
Proof.
  intros HI. cbn [In] in HI. unfold file_modes.
  repeat (destruct HI as [E|HI]; [injection E as <- <-|]); try destruct HI;
    (match goal with |- context [Files.find_file ?a ?x ?y] => let v := eval vm_compute in (Files.find_file a x y) in replace (Files.find_file a x y) with v by (vm_compute; reflexivity) end); cbv iota.
  - exact load_ar.
  - exact load_aro.
  - exact load_ox.
Qed.

Lemma case_one : exists k, create_generator case_cenv (case_json ["ar.react"]) = Ok k /\ z_modes (k_gen k) = on_atom 18 1000180400 /\ gn_source (z_state (k_gen k)) = case_src /\
  gn_max (z_state (k_gen k)) = None /\ E_density (z_state (k_gen k)) 10 = 1.
Proof.
  destruct (case_created ["ar.react"] (on_atom 18 1000180400)) as (k & K1 & K2 & K3 & _ & K5 & K6); [discriminate| |auto|left; reflexivity|exists k; auto].
  intros o. cbn [map load_files]. pose proof (case_load "ar.react" _ (or_introl eq_refl)) as L. unfold file_modes in L. destruct (Files.find_file _ _ _) as [|q qs]; [discriminate|]. rewrite L. cbn [bind on_atom]. cbv zeta. cbn [existsb].
  change (ce_info case_cenv) with true. cbv iota. change (fst (mode_key (el (1 / 2 + sin2thetaw) sin2thetaw 18 1000180400 12))) with 1000180400%Z. change (atom_name 1000180400) with (Ok (b "Ar")). cbn [bind]. rewrite adds_form. reflexivity.
Qed.

(** Two electron files: the second is ignored although it is about oxygen too. *)
Lemma case_drop : exists k, create_generator case_cenv (case_json ["ar.react"; "aro.react"]) = Ok k /\ z_modes (k_gen k) = on_atom 18 1000180400.
Proof.
  destruct (case_created ["ar.react"; "aro.react"] (on_atom 18 1000180400)) as (k & K1 & K2 & K3 & _); [discriminate| |auto|left; reflexivity|exists k; auto].
  intros o. cbn [map load_files]. pose proof (case_load "ar.react" _ (or_introl eq_refl)) as L. unfold file_modes in L. destruct (Files.find_file _ (to_string (JStr (b "ar.react"))) _) as [|q qs]; [discriminate|]. rewrite L.
  pose proof (case_load "aro.react" _ (or_intror (or_introl eq_refl))) as L'. unfold file_modes in L'. destruct (Files.find_file _ (to_string (JStr (b "aro.react"))) _) as [|q' qs']; [discriminate|]. rewrite L'.
  cbn [bind on_atom app]. cbv zeta. cbn [existsb].
  change (ce_info case_cenv) with true. change (ce_warn case_cenv) with true. cbv iota. change (fst (mode_key (el (1 / 2 + sin2thetaw) sin2thetaw 18 1000180400 12))) with 1000180400%Z. change (atom_name 1000180400) with (Ok (b "Ar")). cbn [bind]. rewrite adds_form. cbn [bind app existsb].
  change (key_eqb _ _) with true. cbn [orb]. reflexivity.
Qed.

(** Two electron files: the second is loaded although oxygen is there already. *)
Lemma case_twice : exists k, create_generator case_cenv (case_json ["aro.react"; "ox.react"]) = Ok k /\ z_modes (k_gen k) = on_atom 18 1000180400 ++ on_atom 8 1000080160 ++ on_atom 8 1000080160.
Proof.
  destruct (case_created ["aro.react"; "ox.react"] (on_atom 18 1000180400 ++ on_atom 8 1000080160 ++ on_atom 8 1000080160)) as (k & K1 & K2 & K3 & _); [discriminate| |intros m HM; rewrite !in_app_iff in HM; tauto|left; reflexivity|exists k; auto].
  intros o. cbn [map load_files]. pose proof (case_load "aro.react" _ (or_intror (or_introl eq_refl))) as L. unfold file_modes in L. destruct (Files.find_file _ (to_string (JStr (b "aro.react"))) _) as [|q qs]; [discriminate|]. rewrite L.
  pose proof (case_load "ox.react" _ (or_intror (or_intror (or_introl eq_refl)))) as L'. unfold file_modes in L'. destruct (Files.find_file _ (to_string (JStr (b "ox.react"))) _) as [|q' qs']; [discriminate|]. rewrite L'.
  cbn [bind on_atom app]. cbv zeta. cbn [existsb].
  change (ce_info case_cenv) with true. cbv iota. change (fst (mode_key (el (1 / 2 + sin2thetaw) sin2thetaw 18 1000180400 12))) with 1000180400%Z. change (atom_name 1000180400) with (Ok (b "Ar")). cbn [bind]. rewrite adds_form. cbn [bind app existsb].
  change (key_eqb _ _) with false. cbn [orb]. change (fst (mode_key (el (1 / 2 + sin2thetaw) sin2thetaw 8 1000080160 12))) with 1000080160%Z. change (atom_name 1000080160) with (Ok (b "O")). cbn [bind]. rewrite adds_form. reflexivity.
Qed.
