(** Property C25, continued: the ways a reaction data file can be refused. *)
From Coq Require Import List Ascii String ZArith Bool Lia.
From Coq Require Import Floats.SpecFloat.
From Verif Require Import Base Dbl DigitsProofs DblProofs Stream StreamProofs Pdg Names React PdgThms Event EventSpec Levels
  LevelsProofs LevelsTextProofs MatEl LevelsThms MatElThms.
Import ListNotations.
Local Open Scope Z_scope.

(** The first line that is not a comment. *)
Definition header (ls : list bytes) (t : bytes) : bytes :=
  match filter (fun l => negb (is_comment l)) ls with l :: _ => l | [] => if is_comment t then [] else t end.

Definition blank (s : bytes) : Prop := forallb is_space s = true.

(** It starts with an integer, followed by something more unless it stands for electron
    scattering. *)
Definition header_complete (hd : bytes) : Prop := exists code r, rd_int hd = Some (code, r) /\ (code = 3 \/ ~ blank r).

(** A line of the table has two numbers and something after them. *)
Definition line_complete (l : bytes) : Prop := exists e r1 s r2, rd_dbl l = Some (e, r1) /\ rd_dbl r1 = Some (s, r2) /\ ~ blank r2.

(** A nuclide without a chemical symbol or without a charge. *)
Definition nameless (pdg : Z) : Prop := element_symbol (code_Z pdg) = Er StdRange \/ particle_charge pdg = Er StdRange.

Lemma get_dbl_got s x r : get_dbl s = Got x r <-> rd_dbl s = Some (x, r).
Proof.
  unfold get_dbl. split.
  - destruct (skip_sp s) as [|c s']; [discriminate|]. destruct (rd_dbl s) as [[y t]|]; [intros H; injection H as -> ->; reflexivity|].
    destruct (take_sign _) as [neg r0]. destruct (span_digits r0) as [ip r1]. destruct (match r1 with [] => _ | _ => _ end) as [fp r2].
    destruct (ip ++ fp); [discriminate|]. destruct (rd_exp r2); discriminate.
  - intros H. pose proof (rd_dbl_nonblank _ _ H). destruct (skip_sp s); [contradiction|]. rewrite H. reflexivity.
Qed.
Lemma get_int_unset s : get_int s = Unset -> blank s.
Proof.
  unfold get_int. destruct (skip_sp s) eqn:E; [intros _; apply skip_sp_nil; exact E|]. destruct (rd_int s) as [[z r]|]; [discriminate|].
  destruct (take_sign _) as [neg r]. destruct (span_digits r) as [[|d ds] r']; discriminate.
Qed.
Lemma get_int_got s x r : get_int s = Got x r -> rd_int s = Some (x, r).
Proof.
  unfold get_int. destruct (skip_sp s) as [|c s']; [discriminate|]. destruct (rd_int s) as [[y t]|]; [intros H; injection H as -> ->; reflexivity|].
  destruct (take_sign _) as [neg r0]. destruct (span_digits r0) as [[|d ds] r']; discriminate.
Qed.
Lemma rd_int_get s x r : rd_int s = Some (x, r) -> get_int s = Got x r.
Proof.
  intros H. unfold get_int. destruct (skip_sp s) eqn:E; [|rewrite H; reflexivity].
  exfalso. apply skip_sp_nil in E. unfold rd_int in H. rewrite rd_num_blank in H by exact E. discriminate H.
Qed.

Lemma read_matel_fails old l e : read_matel old l = Er e -> e = MarleyErr \/ e = Undefined /\ ~ line_complete l.
Proof.
  intros H. destruct e; try (left; reflexivity); right; unfold read_matel in H.
  all: destruct (get_dbl l) as [x r|x|] eqn:E1; [destruct (dle x old); [discriminate|]; destruct (get_dbl r) as [y r2|y|] eqn:E2; [destruct (get_int r2) as [z r3|z|] eqn:E3; try discriminate| |]|destruct (dle x old)|]; try discriminate H; split; try reflexivity.
  all: intros (x' & r1' & s' & r2' & A & B & C); apply get_dbl_got in A, B; rewrite A in E1; try discriminate E1; injection E1 as -> ->; rewrite B in E2; try discriminate E2; injection E2 as -> ->.
  apply C, get_int_unset, E3.
Qed.

Lemma read_table_fails ls : forall old e, read_table old ls = Er e ->
  e = MarleyErr \/ e = Undefined /\ exists l, In l (filter (fun l => negb (is_comment l)) ls) /\ ~ line_complete l.
Proof.
  induction ls as [|l ls IH]; intros old e H; cbn [read_table] in H; [discriminate|]. cbn [filter]. destruct (is_comment l); cbn [negb]; [exact (IH _ _ H)|].
  destruct (read_matel old l) as [m|e'] eqn:E; cbn [bind] in H.
  - destruct (read_table (m_energy m) ls) as [ms|e'] eqn:E'; [discriminate|]. injection H as ->. destruct (IH _ _ E') as [->|(-> & l' & A & B)]; [left; reflexivity|right; split; [reflexivity|]]. exists l'. split; [right; exact A|exact B].
  - injection H as ->. destruct (read_matel_fails _ _ _ E) as [->|[-> N]]; [left; reflexivity|right; split; [reflexivity|]]. exists l. split; [left; reflexivity|exact N].
Qed.

Lemma lower_bound_le e l : (lower_bound_index e l <= List.length l)%nat.
Proof. induction l as [|p r IH]; cbn [lower_bound_index List.length]; [lia|]. destruct (dlt _ _); lia. Qed.
Lemma closest_none e sc : closest_level e sc = None -> s_levels sc = [].
Proof.
  unfold closest_level, closest_index. destruct (s_levels sc) as [|x l] eqn:E; [reflexivity|]. rewrite <- E. intros H. exfalso.
  pose proof (lower_bound_le e (s_levels sc)) as B. assert (L : (0 < List.length (s_levels sc))%nat) by (rewrite E; cbn [List.length]; lia).
  destruct (Nat.eqb_spec (lower_bound_index e (s_levels sc)) (List.length (s_levels sc))) as [Q|Q].
  - apply nth_error_None in H. lia.
  - destruct (lower_bound_index e (s_levels sc)) as [|j]; [apply nth_error_None in H; lia|].
    destruct (nth_error (s_levels sc) (S j)) as [p|] eqn:E1; [|apply nth_error_None in E1; lia]. destruct (nth_error (s_levels sc) j) as [q|] eqn:E2; [|apply nth_error_None in E2; lia].
    destruct (_ <? _); congruence.
Qed.

Lemma match_levels_fails sc thr : forall todo pre e, match_levels sc thr pre todo = Er e -> e = MarleyErr \/ e = Undefined /\ s_levels sc = [].
Proof.
  induction todo as [|m r IH]; intros pre e H; cbn [match_levels] in H; [discriminate|]. destruct (dlt thr _); [exact (IH _ _ H)|].
  destruct (closest_level (m_energy m) sc) as [p|] eqn:E.
  - destruct (existsb _ _); [injection H as <-; left; reflexivity|exact (IH _ _ H)].
  - injection H as <-. right. split; [reflexivity|]. apply closest_none in E. exact E.
Qed.

Lemma map_res_fails {A B} (f : A -> res B) l e : map_res f l = Er e -> exists x, In x l /\ f x = Er e.
Proof.
  induction l as [|x r IH]; cbn [map_res]; [discriminate|]. destruct (f x) as [y|e'] eqn:E; cbn [bind].
  - destruct (map_res f r) as [r'|e']; cbn [bind]; [discriminate|]. intros H. injection H as ->. destruct (IH eq_refl) as (z & A1 & A2). exists z. split; [right; exact A1|exact A2].
  - intros H. injection H as ->. exists x. split; [left; reflexivity|exact E].
Qed.

Lemma element_symbol_fails z e : element_symbol z = Er e -> e = StdRange.
Proof. unfold element_symbol. destruct (assoc z element_symbols); [discriminate|]. intros H. injection H as <-. reflexivity. Qed.
Lemma particle_charge_fails z e : particle_charge z = Er e -> e = StdRange.
Proof. unfold particle_charge. destruct (1000000000 <? z); [discriminate|]. destruct (assoc (Z.abs z) charge_table); [discriminate|]. intros H. injection H as <-. reflexivity. Qed.

Lemma electron_reactions_ok : exists rs, electron_reactions = Ok rs.
Proof. eexists. vm_compute. reflexivity. Qed.

Lemma nuclear_reactions_fails p pdg e : nuclear_reactions p pdg = Er e ->
  e = MarleyErr \/ e = StdRange /\ exists d q, residue p pdg = Ok (d, q) /\ (nameless pdg \/ nameless d).
Proof.
  unfold nuclear_reactions. destruct (residue p pdg) as [[d q]|e'] eqn:ER; cbn [bind].
  2: { intros H. injection H as ->. left. unfold residue in ER. destruct p; repeat match type of ER with (if ?x then _ else _) = _ => destruct x end; congruence. }
  intros H. apply map_res_fails in H as (a & Ha & H). right.
  assert (EJ : exists c, ejectile a p = Ok c /\ (exists qa, particle_charge a = Ok qa) /\ exists qc, particle_charge c = Ok qc).
  { destruct p; cbn [projectiles In] in Ha; repeat (destruct Ha as [<-|Ha]); try contradiction Ha; (eexists; split; [reflexivity|split; eexists; reflexivity]). }
  destruct EJ as (c & EJ & (qa & Eqa) & (qc & Eqc)). rewrite EJ in H. cbn [bind] in H. unfold nuclear_reaction in H. rewrite Eqa, Eqc in H.
  destruct (element_symbol (code_Z pdg)) as [s1|e1] eqn:E1; cbn [bind] in H.
  2: { injection H as ->. pose proof (element_symbol_fails _ _ E1) as ->. split; [reflexivity|]. exists d, q. split; [reflexivity|]. left. left. exact E1. }
  destruct (element_symbol (code_Z d)) as [s2|e2] eqn:E2; cbn [bind] in H.
  2: { injection H as ->. pose proof (element_symbol_fails _ _ E2) as ->. split; [reflexivity|]. exists d, q. split; [reflexivity|]. right. left. exact E2. }
  destruct (particle_charge pdg) as [q1|e1] eqn:P1; cbn [bind] in H.
  2: { injection H as ->. pose proof (particle_charge_fails _ _ P1) as ->. split; [reflexivity|]. exists d, q. split; [reflexivity|]. left. right. exact P1. }
  destruct (particle_charge d) as [q2|e2] eqn:P2; cbn [bind] in H; [discriminate|].
  injection H as ->. pose proof (particle_charge_fails _ _ P2) as ->. split; [reflexivity|]. exists d, q. split; [reflexivity|]. right. right. exact P2.
Qed.

(** A file that is refused: marley::Error, or std::out_of_range for a target or residue that
    has no name, or the error met on looking up the residue. The behaviour is undefined only
    for a first line that does not start with the code of a process (and a target, unless the
    process is electron scattering), for a line of the table without two numbers and
    something after them, and for a residue whose decay scheme has no levels. *)
Theorem C25_failures nd ls t e : Forall no_nl ls -> no_nl t -> load nd (unlines ls ++ t) = Er e ->
  e = MarleyErr \/
  (e = StdRange /\ exists code p r pdg d q, rd_int (header ls t) = Some (code, r) /\ proc_of_int code = Some p /\ (rd_int r = None \/ exists r', rd_int r = Some (pdg, r')) /\
     residue p pdg = Ok (d, q) /\ (nameless pdg \/ nameless d)) \/
  (exists pdg, n_scheme nd pdg = Er e \/ n_threshold nd pdg = Er e \/ n_gs nd pdg = Er e) \/
  (e = Undefined /\ (~ header_complete (header ls t) \/
     (exists l, In l (tl (filter (fun l => negb (is_comment l)) ls)) /\ ~ line_complete l) \/
     exists d sc, n_scheme nd d = Ok (Some sc) /\ s_levels sc = [])).
Proof.
  intros HL Ht H. unfold load in H. rewrite lines_of_unlines in H by assumption.
  assert (HN : exists ls' g, next_line ls t = (header ls t, ls', g) /\ content ls' = tl (content ls)).
  { pose proof (next_line_content ls t) as HN. unfold header. fold (content ls). destruct (content ls) as [|l r].
    - exists [], false. split; [exact HN|reflexivity].
    - destruct HN as (ls' & HN & E). exists ls', true. split; assumption. }
  destruct HN as (ls' & g & HN & EC). rewrite HN in H. set (hd := header ls t) in *.
  destruct (get_int hd) as [code r|x|] eqn:Eh.
  2,3: injection H as <-; right; right; right; split; [reflexivity|]; left; intros (c & r0 & A & _); apply rd_int_get in A; congruence.
  apply get_int_got in Eh.
  assert (NU : forall op, proc_of_int code = op -> op <> Some NuElectronElastic ->
    match get_int r with
    | Unset => Er Undefined
    | Bad pdg_b | Got pdg_b _ =>
        do ms <- read_table (dbl_max true) ls';
        match op with
        | None => Er MarleyErr
        | Some p => do (d, _) <- residue p pdg_b; do ms' <- set_level_ptrs nd pdg_b d ms; do rs <- nuclear_reactions p pdg_b; Ok (Nuclear rs ms')
        end
    end = Er e -> e = MarleyErr \/
  (e = StdRange /\ exists code p r pdg d q, rd_int hd = Some (code, r) /\ proc_of_int code = Some p /\ (rd_int r = None \/ exists r', rd_int r = Some (pdg, r')) /\
     residue p pdg = Ok (d, q) /\ (nameless pdg \/ nameless d)) \/
  (exists pdg, n_scheme nd pdg = Er e \/ n_threshold nd pdg = Er e \/ n_gs nd pdg = Er e) \/
  (e = Undefined /\ (~ header_complete hd \/
     (exists l, In l (tl (filter (fun l => negb (is_comment l)) ls)) /\ ~ line_complete l) \/
     exists d sc, n_scheme nd d = Ok (Some sc) /\ s_levels sc = []))).
  { clear H. intros op Hop Hne H.
    assert (K : forall pdg_b, (rd_int r = None \/ exists r', rd_int r = Some (pdg_b, r')) ->
      (do ms <- read_table (dbl_max true) ls';
        match op with
        | None => Er MarleyErr
        | Some p => do (d, _) <- residue p pdg_b; do ms' <- set_level_ptrs nd pdg_b d ms; do rs <- nuclear_reactions p pdg_b; Ok (Nuclear rs ms')
        end) = Er e -> e = MarleyErr \/
  (e = StdRange /\ exists code p r pdg d q, rd_int hd = Some (code, r) /\ proc_of_int code = Some p /\ (rd_int r = None \/ exists r', rd_int r = Some (pdg, r')) /\
     residue p pdg = Ok (d, q) /\ (nameless pdg \/ nameless d)) \/
  (exists pdg, n_scheme nd pdg = Er e \/ n_threshold nd pdg = Er e \/ n_gs nd pdg = Er e) \/
  (e = Undefined /\ (~ header_complete hd \/
     (exists l, In l (tl (filter (fun l => negb (is_comment l)) ls)) /\ ~ line_complete l) \/
     exists d sc, n_scheme nd d = Ok (Some sc) /\ s_levels sc = []))).
    { clear H. intros pdg_b Hr H. destruct (read_table (dbl_max true) ls') as [ms|e1] eqn:ET; cbn [bind] in H.
      2: { injection H as ->. destruct (read_table_fails _ _ _ ET) as [->|(-> & l & A & B)]; [left; reflexivity|]. right. right. right. split; [reflexivity|]. right. left. exists l. split; [|exact B].
           fold (content ls') in A. fold (content ls). rewrite <- EC. exact A. }
      destruct op as [p|]; [|injection H as <-; left; reflexivity].
      destruct (residue p pdg_b) as [[d q]|e1] eqn:ER; cbn [bind] in H.
      2: { injection H as ->. left. unfold residue in ER. destruct p; repeat match type of ER with (if ?x then _ else _) = _ => destruct x end; congruence. }
      destruct (set_level_ptrs nd pdg_b d ms) as [ms'|e1] eqn:ES; cbn [bind] in H.
      - destruct (nuclear_reactions p pdg_b) as [rs|e1] eqn:EN; cbn [bind] in H; [discriminate|]. injection H as ->.
        destruct (nuclear_reactions_fails _ _ _ EN) as [->|(-> & d' & q' & A & B)]; [left; reflexivity|]. right. left. split; [reflexivity|]. exists code, p, r, pdg_b, d', q'. repeat split; assumption.
      - injection H as ->. unfold set_level_ptrs in ES. destruct (n_scheme nd d) as [[sc|]|e1] eqn:E1; cbn [bind] in ES; [|discriminate|].
        + destruct (negb _); [injection ES as <-; left; reflexivity|]. destruct (n_threshold nd d) as [thr|e1] eqn:E2; cbn [bind] in ES; [|injection ES as ->; right; right; left; exists d; right; left; exact E2].
          destruct (n_gs nd pdg_b) as [g0|e1] eqn:E3; cbn [bind] in ES; [|injection ES as ->; right; right; left; exists pdg_b; right; right; exact E3].
          destruct (match_levels_fails _ _ _ _ _ ES) as [->|[-> L]]; [left; reflexivity|]. right. right. right. split; [reflexivity|]. right. right. exists d, sc. split; assumption.
        + injection ES as ->. right. right. left. exists d. left. exact E1. }
    destruct (get_int r) as [x r'|x|] eqn:Er.
    - apply (K x); [right; exists r'; apply get_int_got; exact Er|exact H].
    - apply (K x); [left|exact H]. destruct (rd_int r) as [[y r']|] eqn:E'; [|reflexivity]. apply rd_int_get in E'. congruence.
    - injection H as <-. right. right. right. split; [reflexivity|]. left. intros (c & r0 & A & B). assert (r0 = r /\ c = code) as [-> ->] by (split; congruence).
      apply get_int_unset in Er. destruct B as [->|B]; [|exact (B Er)]. apply Hne. rewrite <- Hop. reflexivity. }
  destruct (proc_of_int code) as [[]|] eqn:Ep.
  1,2,3,5: apply (NU _ eq_refl); [discriminate|exact H].
  clear NU. destruct (map_res _ _) as [ts|e1] eqn:EM; cbn [bind] in H; [discriminate|]. injection H as ->. left.
  apply map_res_fails in EM as (x & _ & EM). unfold target_atom in EM. destruct (particle_A x <=? 0); cbn [bind] in EM; [congruence|].
  destruct electron_reactions_ok as [rs Ers]. rewrite Ers in EM. discriminate EM.
Qed.
Print Assumptions C25_failures.

(** Each way occurs: no lines at all; a table that goes down; a line without a strength. *)
Example C25_failures_case : let nd := mkn (fun _ => Ok None) (fun _ => Ok (0, true)) (fun _ => Ok dbl_zero) in
  load nd [] = Er Undefined /\
  load nd (unlines [b "0 1000180400"; b "2.0 1.0 0"; b "1.5 1.0 1"]) = Er MarleyErr /\
  load nd (unlines [b "0 1000180400"; b "2.0"]) = Er Undefined /\
  load nd (unlines [b "2 1001200400"]) = Er StdRange /\
  exists rs ms, load nd (unlines [b "0 1000180400"; b "1.5 1.0 1"; b "2.0 1.0 0"]) = Ok (Nuclear rs ms).
Proof. cbv zeta. repeat split; try (vm_compute; reflexivity). eexists. eexists. vm_compute. reflexivity. Qed.

(** A line that starts with something that is no number counts as one of energy zero. So it
    is refused unless every line before it has a negative energy. *)
Theorem C25_unreadable old l c r : skip_sp l = c :: r -> ~ In c (b "0123456789+-.") -> 0 <= units old -> read_matel old l = Er MarleyErr.
Proof.
  intros H N Ho. unfold read_matel, get_dbl, rd_dbl. rewrite H.
  assert (TS : take_sign (c :: r) = (false, c :: r)).
  { cbn [take_sign]. destruct (ceq c "-"%char) eqn:E1; [exfalso; apply N; apply Ascii.eqb_eq in E1; subst c; vm_compute; tauto|].
    destruct (ceq c "+"%char) eqn:E2; [exfalso; apply N; apply Ascii.eqb_eq in E2; subst c; vm_compute; tauto|reflexivity]. }
  rewrite TS.
  assert (SD : span_digits (c :: r) = ([], c :: r)).
  { cbn [span_digits]. destruct (is_digit c) eqn:E; [|reflexivity]. exfalso. apply N. revert E. clear. destruct c as [[] [] [] [] [] [] [] []]; vm_compute; tauto || discriminate. }
  rewrite SD. destruct (ceq c "."%char) eqn:E; [exfalso; apply N; apply Ascii.eqb_eq in E; subst c; vm_compute; tauto|].
  cbn [app]. unfold dle. replace (units dbl_zero) with 0 by reflexivity. destruct (Z.leb_spec 0 (units old)); [reflexivity|lia].
Qed.
Print Assumptions C25_unreadable.

(** This is not so for every energy that cannot be read: one that is too large is let
    through, and the variables that follow are used without having been set. *)
Theorem C25_unreadable_refuted : ~ (forall old l, skip_sp l <> [] -> rd_dbl l = None -> 0 <= units old -> read_matel old l = Er MarleyErr).
Proof. intros H. specialize (H dbl_zero (b ".5e999 1 0")). assert (read_matel dbl_zero (b ".5e999 1 0") = Er Undefined) by (vm_compute; reflexivity). rewrite H in H0; [discriminate|vm_compute; discriminate|vm_compute; reflexivity|vm_compute; discriminate]. Qed.
Print Assumptions C25_unreadable_refuted.
