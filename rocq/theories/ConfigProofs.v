(** Lemmas about the job configuration. *)
From Coq Require Import List Ascii String ZArith Reals Bool Lia Lra.
From Coq Require Import Floats.SpecFloat.
From Verif Require Import Base Dbl Json Pdg Names React Levels MatEl Mass NucReact Kin Rot Sample XReal Grid Quad Source Target Gen GenThms Decay Run Config ConfigSpec.
From Verif Require Files.
Import ListNotations.
Open Scope string_scope.
Open Scope list_scope.
Open Scope R_scope.

Ltac bind_in H := match type of H with bind ?e _ = Ok _ => let E := fresh "E" in destruct e eqn:E; cbn [bind] in H; [|discriminate H] end.

Lemma has_value k j : has_key (b k) j = match held j k with Some _ => true | None => false end.
Proof. destruct j; reflexivity. Qed.
Lemma at_value k j v : held j k = Some v -> at_key (b k) j = Ok v.
Proof. destruct j; cbn [held at_key]; try discriminate. intros ->. reflexivity. Qed.

Ltac key k j := let E := fresh "V" in rewrite (has_value k j) in *; destruct (held j k) as [?v|] eqn:E; [try rewrite (at_value _ _ _ E) in *; cbn [bind] in *|].

(** The state of the generator while it is being configured. *)
Definition building (src : nsource) (w : bool) (def : option R) (ms : list mode) (t : option target) (o : rotator) (d : bool) : generator :=
  mkgen ms (mkgstate (map mode_rxn ms) (map (fun _ => 0) ms) src t w 1 true def None) o d.

Definition start : generator := building default_source true None [] None (mkrot zaxis zaxis identity false) true.
Lemma start_eq : set_hold true fresh_generator = start. Proof. reflexivity. Qed.

Lemma direction_form j z : prepare_direction j start = Ok z -> exists o, z = building default_source true None [] None o true.
Proof.
  unfold prepare_direction. intros H. key "direction" j; [|injection H as <-; eexists; reflexivity].
  destruct v; try discriminate H.
  - destruct (bytes_eqb _ _); [|discriminate H]. injection H as <-. eexists. reflexivity.
  - repeat bind_in H. injection H as <-. eexists. reflexivity.
Qed.

Lemma source_form j z o z' : z = building default_source true None [] None o true -> prepare_source j z = Ok z' ->
  exists src w def, z' = building src w def [] None o true /\ (held j "energy_pdf_max" = None -> def = None).
Proof.
  intros -> H. unfold prepare_source in H.
  assert (F : forall def H0, H0 = (let z := building default_source true def [] None o true in
     if negb (has_key (b "source") j) then Ok z
     else do spec <- at_key (b "source") j;
     match spec with
     | JNull => Ok z
     | _ =>
        do type <- text (b "type") spec (Er MarleyErr);
        do nu <- text (b "neutrino") spec (Er MarleyErr);
        do pdg <- neutrino_pdg nu;
        do s <- make_source type pdg spec;
        do g <- (if has_key (b "weight_flux") spec then
                   do v <- at_key (b "weight_flux") spec;
                   match v with JBool w => Ok (set_weight_flux (z_state z) w) | _ => Er MarleyErr end
                 else Ok (z_state z));
        do ns <- as_nsource s;
        let '(g', r) := set_source g (Some ns) in
        do _ <- r; Ok (with_state z g')
     end) -> H0 = Ok z' -> exists src w, z' = building src w def [] None o true).
  { clear H. intros def H0 -> H. cbv zeta in H. key "source" j; [|cbn [negb] in H; injection H as <-; eexists; eexists; reflexivity]. cbn [negb] in H.
    assert (G : forall spec, (do type <- text (b "type") spec (Er MarleyErr);
        do nu <- text (b "neutrino") spec (Er MarleyErr);
        do pdg <- neutrino_pdg nu;
        do s <- make_source type pdg spec;
        do g <- (if has_key (b "weight_flux") spec then
                   do v <- at_key (b "weight_flux") spec;
                   match v with JBool w => Ok (set_weight_flux (z_state (building default_source true def [] None o true)) w) | _ => Er MarleyErr end
                 else Ok (z_state (building default_source true def [] None o true)));
        do ns <- as_nsource s;
        let '(g', r) := set_source g (Some ns) in
        do _ <- r; Ok (with_state (building default_source true def [] None o true) g')) = Ok z' -> exists src w, z' = building src w def [] None o true).
    { clear H. intros spec H. do 4 bind_in H. key "weight_flux" spec.
      - destruct v0; try discriminate H. cbn [bind] in H. bind_in H. unfold set_source, set_weight_flux in H. cbn [z_state building gn_rx map] in H. cbn [bind] in H. injection H as <-. eexists; eexists; reflexivity.
      - cbn [bind] in H. bind_in H. unfold set_source in H. cbn [z_state building gn_rx map] in H. cbn [bind] in H. injection H as <-. eexists; eexists; reflexivity. }
    destruct v; try (apply (G _ H)). injection H as <-. eexists; eexists; reflexivity. }
  key "energy_pdf_max" j.
  - bind_in H. bind_in E. injection E as <-. destruct (F (Some a0) _ eq_refl H) as (src & w & ->). exists src, w, (Some a0). split; [reflexivity|discriminate].
  - destruct (F None _ eq_refl H) as (src & w & ->). exists src, w, None. auto.
Qed.

Lemma add_form src w def o d m ms : add_mode (building src w def ms None o d) m = Ok (building src w def (ms ++ [m]) None o d).
Proof. unfold add_mode, add_reaction, normalize. cbn [z_state building gn_hold z_modes z_rot z_deex]. cbn [bind]. unfold building. rewrite !map_app. reflexivity. Qed.
Lemma adds_form src w def o d l : forall ms, add_modes (building src w def ms None o d) l = Ok (building src w def (ms ++ l) None o d).
Proof. induction l as [|m l IH]; intros ms; cbn [add_modes]; [rewrite app_nil_r; reflexivity|]. rewrite add_form. cbn [bind]. rewrite IH, <- app_assoc. reflexivity. Qed.

(** What is loaded from a listed file. *)
Definition file_modes (c : cenv) (n : json) : res (list mode) :=
  match Files.find_file (ce_files c) (to_string n) (ce_path c) with [] => Er MarleyErr | full => load_modes c (Files.f_text (ce_files c) full) end.

(** The files whose first reaction is new. *)
Fixpoint chosen (seen : list (Z * proc)) (files : list (list mode)) : list mode :=
  match files with
  | [] => []
  | [] :: r => chosen seen r
  | (m :: f) :: r => if existsb (key_eqb (mode_key m)) seen then chosen seen r else (m :: f) ++ chosen (seen ++ [mode_key m]) r
  end.

Lemma files_form c src w def o d names : forall seen ms z, load_files c names seen (building src w def ms None o d) = Ok z ->
  exists fs, Forall2 (fun n f => file_modes c n = Ok f /\ f <> []) names fs /\ z = building src w def (ms ++ chosen seen fs) None o d.
Proof.
  induction names as [|n names IH]; intros seen ms z H; cbn [load_files] in H.
  - injection H as <-. exists []. split; [constructor|]. cbn [chosen]. rewrite app_nil_r. reflexivity.
  - destruct (Files.find_file _ _ _) as [|ch p] eqn:EF; [discriminate|]. bind_in H. destruct a as [|m f]; [discriminate|]. cbv zeta in H.
    assert (FM : file_modes c n = Ok (m :: f)) by (unfold file_modes; rewrite EF; exact E).
    destruct (existsb _ seen) eqn:ES.
    + bind_in H. destruct (IH _ _ _ H) as (fs & F & ->). exists ((m :: f) :: fs). split; [constructor; [split; [exact FM|discriminate]|exact F]|]. cbn [chosen]. rewrite ES. reflexivity.
    + bind_in H. rewrite adds_form in H. cbn [bind] in H. destruct (IH _ _ _ H) as (fs & F & ->). exists ((m :: f) :: fs). split; [constructor; [split; [exact FM|discriminate]|exact F]|].
      cbn [chosen]. rewrite ES, <- app_assoc. reflexivity.
Qed.

Lemma reactions_form c j src w def o d z : prepare_reactions c j (building src w def [] None o d) = Ok z ->
  (held j "reactions" = Some JNull /\ z = building src w def [] None o d) \/
  (exists names fs, held j "reactions" = Some (JArr names) /\ names <> [] /\ Forall2 (fun n f => file_modes c n = Ok f /\ f <> []) names fs /\ z = building src w def (chosen [] fs) None o d).
Proof.
  unfold prepare_reactions. intros H. key "reactions" j; [|discriminate]. destruct v; try discriminate H; [left; injection H as <-; auto|].
  destruct l as [|n l]; [discriminate|]. right. destruct (files_form _ _ _ _ _ _ _ _ _ _ H) as (fs & F & ->). exists (n :: l), fs. split; [reflexivity|]. split; [discriminate|]. auto.
Qed.

(** The atoms and fractions a target is made from. *)
Definition given (j : json) (rx : list rxn) : res (option (list Z * list R)) :=
  match held j "target" with
  | None => match rx with [] => Ok None | _ :: _ => Ok (Some (atom_set rx, map (fun _ => 1) (atom_set rx))) end
  | Some spec =>
      match held spec "nuclides", held spec "atom_fractions" with
      | Some (JArr ns), Some (JArr fs) =>
          if negb (Nat.eqb (List.length ns) (List.length fs)) then Er MarleyErr
          else if Nat.eqb (List.length ns) 0 then Er MarleyErr
          else do p <- listed_atoms ns fs; Ok (Some p)
      | _, _ => Er MarleyErr
      end
  end.

Lemma target_form c j src w def ms o d z : prepare_target c j (building src w def ms None o d) = Ok z ->
  (given j (map mode_rxn ms) = Ok None /\ z = building src w def ms None o d) \/
  (exists ns fs t, given j (map mode_rxn ms) = Ok (Some (ns, fs)) /\ make_target (ce_warn c) ns fs = Ok t /\ z = building src w def ms (Some t) o d).
Proof.
  intros H. unfold prepare_target in H.
  assert (F : forall ns fs, (do t <- make_target (ce_warn c) ns fs;
    do _ <- (if (ce_info c && has_single_nuclide t)%bool then match t with (n, _) :: _ => atom_name n | [] => Ok [] end else Ok []);
    let '(g, r) := set_target (z_state (building src w def ms None o d)) (Some t) in
    do _ <- r; Ok (with_state (building src w def ms None o d) g)) = Ok z -> exists t, make_target (ce_warn c) ns fs = Ok t /\ z = building src w def ms (Some t) o d).
  { clear H. intros ns fs H. bind_in H. bind_in H. exists a. split; [reflexivity|]. unfold set_target in H. cbn [z_state building gn_rx gn_hold] in H.
    unfold normalize in H. cbn [gn_hold] in H. destruct (map mode_rxn ms) eqn:EM; cbn [bind] in H; injection H as <-; unfold with_state, building; rewrite EM; reflexivity. }
  cbv zeta in H. unfold given. key "target" j; cbn [negb] in H.
  - destruct v as [| | | | | |l] eqn:EV; try discriminate H. rewrite <- EV in *. assert (HO : forall k, held v k = obj_get (b k) l) by (intros k; rewrite EV; reflexivity).
    rewrite (has_value "nuclides" v) in H. destruct (held v "nuclides") as [n|] eqn:VN; [|discriminate H]. cbn [negb] in H. rewrite (at_value _ _ _ VN) in H. cbn [bind] in H.
    destruct n as [| | | | |ns|]; try discriminate H. rewrite (has_value "atom_fractions" v) in H. destruct (held v "atom_fractions") as [f|] eqn:VF; [|discriminate H]. cbn [negb] in H. rewrite (at_value _ _ _ VF) in H. cbn [bind] in H.
    destruct f as [| | | | |fs|]; try discriminate H. destruct (negb (Nat.eqb (List.length ns) (List.length fs))); [discriminate H|]. destruct (Nat.eqb (List.length ns) 0); [discriminate H|].
    bind_in H. destruct a as [as' fs']. destruct (F _ _ H) as (t & T & ->). right. exists as', fs', t. auto.
  - change (gn_rx (z_state (building src w def ms None o d))) with (map mode_rxn ms) in H. destruct (map mode_rxn ms) as [|x l] eqn:EM; [injection H as <-; left; auto|]. right. destruct (F _ _ H) as (t & T & ->). exists (atom_set (x :: l)), (map (fun _ => 1) (atom_set (x :: l))), t. auto.
Qed.

Definition deex_of (j : json) : bool := match held j "do_deexcitations" with Some (JBool d) => d | _ => true end.

Definition seed_of (j : json) : res (option Z) :=
  match held j "seed" with None => Ok None | Some (JInt n) => Ok (Some (n mod 2 ^ 64)%Z) | Some _ => Er MarleyErr end.

Lemma create_form c j k : create_generator c j = Ok k ->
  exists o src w def ms t z1 z2,
    seed_of j = Ok (k_seed k) /\ setting (b "fragment_lmax") 0 j = Ok (k_flmax k) /\ setting (b "gamma_lmax") 1 j = Ok (k_glmax k) /\
    prepare_direction j start = Ok z1 /\ z1 = building default_source true None [] None o true /\
    prepare_source j z1 = Ok z2 /\ z2 = building src w def [] None o true /\
    prepare_reactions c j z2 = Ok (building src w def ms None o true) /\
    prepare_target c j (building src w def ms None o true) = Ok (building src w def ms t o true) /\
    ((held j "reactions" = Some JNull /\ k_gen k = building src w def ms t o (deex_of j)) \/
     (held j "reactions" <> Some JNull /\ exists m, coulomb_mode j = Ok m /\
        let ms' := map (with_cmode m) ms in
        (exists r, In r (map mode_rxn ms') /\ x_proj r = ns_pid src) /\
        describe (building src w def ms' t o (deex_of j)) ms' = Ok tt /\
        exists g, normalize (mkgstate (map mode_rxn ms') (map (fun _ => 0) ms') src t w 1 false def None) = (g, Ok tt) /\
          k_gen k = mkgen ms' g o (deex_of j))).
Proof.
  unfold create_generator. intros H. bind_in H. rename a into sd. rewrite start_eq in H. cbv zeta in H. bind_in H. rename a into z1. rename E0 into E1. bind_in H. rename a into fl. rename E0 into EF. bind_in H. rename a into gl. rename E0 into EG.
  bind_in H. rename a into z2. rename E0 into E2. bind_in H. rename a into z3. rename E0 into E3. bind_in H. rename a into z4. rename E0 into E4.
  destruct (direction_form _ _ E1) as (o & D). destruct (source_form _ _ _ _ D E2) as (src & w & def & S & _).
  assert (HS : seed_of j = Ok sd). { unfold seed_of. key "seed" j; [|exact E]. destruct v; cbn in E; try discriminate E; exact E. }
  assert (HT : exists ms, z3 = building src w def ms None o true /\ exists t, z4 = building src w def ms t o true).
  { subst z2. destruct (reactions_form _ _ _ _ _ _ _ _ E3) as [[_ R]|(names & fs & _ & _ & _ & R)]; rewrite R in E4; destruct (target_form _ _ _ _ _ _ _ _ _ E4) as [[_ T]|(ns' & fs' & t & _ & _ & T)];
      eexists; (split; [exact R|]); eexists; exact T. }
  destruct HT as (ms & -> & t & ->).
  assert (HD : (if has_key (b "do_deexcitations") j then do v <- at_key (b "do_deexcitations") j;
             match v with JBool d => Ok (mkgen (z_modes (building src w def ms t o true)) (z_state (building src w def ms t o true)) (z_rot (building src w def ms t o true)) d) | _ => Ok (building src w def ms t o true) end
           else Ok (building src w def ms t o true)) = Ok (building src w def ms t o (deex_of j))).
  { unfold deex_of. key "do_deexcitations" j; [|reflexivity]. destruct v; reflexivity. }
  rewrite HD in H. cbn [bind] in H. clear HD.
  exists o, src, w, def, ms, t, z1, z2.
  assert (NU : (if has_key (b "reactions") j then do v <- at_key (b "reactions") j; match v with JNull => Ok true | _ => Ok false end else Ok false) = Ok (match held j "reactions" with Some JNull => true | _ => false end)).
  { key "reactions" j; [|reflexivity]. destruct v; reflexivity. }
  rewrite NU in H. cbn [bind] in H. clear NU.
  assert (FIN : (match held j "reactions" with Some JNull => true | _ => false end = true /\ k = mkconf sd (building src w def ms t o (deex_of j)) fl gl) \/
     (match held j "reactions" with Some JNull => true | _ => false end = false /\ exists m, coulomb_mode j = Ok m /\
        let ms' := map (with_cmode m) ms in
        (exists r, In r (map mode_rxn ms') /\ x_proj r = ns_pid src) /\
        describe (building src w def ms' t o (deex_of j)) ms' = Ok tt /\
        exists g, normalize (mkgstate (map mode_rxn ms') (map (fun _ => 0) ms') src t w 1 false def None) = (g, Ok tt) /\
          k = mkconf sd (mkgen ms' g o (deex_of j)) fl gl)).
  { destruct (match held j "reactions" with Some JNull => true | _ => false end); [left; injection H as <-; auto|]. right. split; [reflexivity|]. bind_in H. exists a. split; [reflexivity|]. cbv zeta.
    assert (SC : set_cmode a (building src w def ms t o (deex_of j)) = building src w def (map (with_cmode a) ms) t o (deex_of j)).
    { unfold set_cmode, building. cbn [z_modes z_state z_rot z_deex gn_xs gn_source gn_target gn_weight gn_norm gn_hold gn_default gn_max]. rewrite (map_map (with_cmode a) (fun _ => 0)). reflexivity. }
    rewrite SC in H. set (ms' := map (with_cmode a) ms) in *. cbn [building z_state gn_source gn_rx z_modes] in H. fold (building src w def ms' t o (deex_of j)) in H.
    destruct (existsb _ _) eqn:EX; [|discriminate H]. cbn [negb] in H. bind_in H. destruct a0.
    apply existsb_exists in EX. destruct EX as (r & R1 & R2). apply Z.eqb_eq in R2. split; [exists r; auto|]. split; [first [exact E5 | reflexivity]|].
    unfold set_hold in H. cbn [building z_modes z_state z_rot z_deex gn_rx gn_xs gn_source gn_target gn_weight gn_norm gn_default gn_max] in H.
    destruct (normalize _) as [g r'] eqn:EN. destruct r' as [[]|]; [|discriminate H]. cbn [bind] in H. injection H as <-. exists g. auto. }
  assert (KS : k_seed k = sd /\ k_flmax k = fl /\ k_glmax k = gl) by (destruct FIN as [[_ ->]|(_ & m & _ & _ & _ & g & _ & ->)]; cbn; auto).
  destruct KS as (-> & -> & ->). subst z1 z2. do 9 (split; [first [assumption | reflexivity]|]).
  destruct FIN as [[N ->]|(N & m & M & R & DS & g & G & ->)].
  - left. destruct (held j "reactions") as [[| | | | | |]|]; try discriminate N. cbn. auto.
  - right. split; [intros X; rewrite X in N; discriminate N|]. exists m. split; [first [exact M | reflexivity]|]. cbv zeta. split; [exact R|]. split; [exact DS|]. exists g. auto.
Qed.
