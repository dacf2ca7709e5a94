(** C86: the Geant4 application hands over the events of the generator. *)
From Coq Require Import List Ascii String ZArith Reals Bool Lia Lra.
From Verif Require Import Base Dbl DigitsProofs Stream Names Report ReportThms Pdg React Kin KinSpec Sample Decay DeexSpec Rot Target Gen GenThms Run RunThms DeexCases RunCases Geant.
Import ListNotations.
Local Open Scope Z_scope.

(** ** The number of events *)

Lemma skip_spaces ws t : forallb is_space ws = true -> (forall c r, t = c :: r -> is_space c = false) -> skip_sp (ws ++ t) = t.
Proof.
  intros H N. induction ws as [|c ws IH]; cbn [app].
  - destruct t as [|c r]; [reflexivity|]. cbn [skip_sp]. rewrite (N c r eq_refl). reflexivity.
  - cbn [forallb] in H. apply andb_prop in H as [H1 H2]. cbn [skip_sp]. rewrite H1. exact (IH H2).
Qed.
Lemma skip_split s : exists ws, s = ws ++ skip_sp s /\ forallb is_space ws = true.
Proof.
  induction s as [|c s (ws & E & H)]; [exists []; split; reflexivity|]. cbn [skip_sp]. destruct (is_space c) eqn:S; [|exists []; split; reflexivity].
  exists (c :: ws). cbn [app forallb]. rewrite S, H, <- E. split; reflexivity.
Qed.
Lemma take_split u : u = take_digits u ++ skipn (List.length (take_digits u)) u /\ forallb is_digit (take_digits u) = true.
Proof.
  induction u as [|c u [IH1 IH2]]; [split; reflexivity|]. cbn [take_digits]. destruct (is_digit c) eqn:D; [|split; reflexivity].
  cbn [List.length skipn app forallb]. rewrite D, IH2, <- IH1. split; reflexivity.
Qed.
Lemma digits_val_nonneg l : forallb is_digit l = true -> 0 <= digits_val l.
Proof. intros H. apply digits_val_bound. exact H. Qed.
Lemma take_all ds : forallb is_digit ds = true -> take_digits ds = ds.
Proof. induction ds as [|c ds IH]; intros H; [reflexivity|]. cbn [forallb] in H. apply andb_prop in H as [H1 H2]. cbn [take_digits]. rewrite H1, IH by exact H2. reflexivity. Qed.
Lemma digit_plain c : is_digit c = true -> is_space c = false /\ ceq c "-" = false /\ ceq c "+" = false.
Proof.
  intros H. repeat split; apply not_true_iff_false; intros G.
  - unfold is_space in G. unfold is_digit in H. lia.
  - unfold ceq in G. apply Ascii.eqb_eq in G. subst c. discriminate H.
  - unfold ceq in G. apply Ascii.eqb_eq in G. subst c. discriminate H.
Qed.

(** The number of events is accepted if it is written with digits only, after spaces and a sign
    at most, and is not negative and below 2^31. *)
Theorem C86_number arg n : get_num_events arg = Some n <->
  exists ws sg ds, arg = ws ++ sg ++ ds /\ forallb is_space ws = true /\ (sg = [] \/ sg = ["+"%char] \/ sg = ["-"%char] /\ n = 0) /\
    ds <> [] /\ forallb is_digit ds = true /\ digits_val ds = n /\ n < 2 ^ 31.
Proof.
  split.
  - unfold get_num_events, stoi_pos. intros H. cbv zeta in H. destruct (skip_split arg) as (ws & E & Hw). set (t := skip_sp arg) in *.
    assert (Q : exists neg u sg, match t with c :: r => if ceq c "-" then (true, r) else if ceq c "+" then (false, r) else (false, t) | [] => (false, t) end = (neg, u) /\
      t = sg ++ u /\ (sg = [] \/ sg = ["+"%char] \/ sg = ["-"%char]) /\ (neg = true <-> sg = ["-"%char])).
    { destruct t as [|c r]; [exists false, [], []; repeat split; auto; discriminate|]. destruct (ceq c "-") eqn:C1; [|destruct (ceq c "+") eqn:C2].
      - unfold ceq in C1. apply Ascii.eqb_eq in C1. subst c. exists true, r, ["-"%char]. repeat split; auto.
      - unfold ceq in C2. apply Ascii.eqb_eq in C2. subst c. exists false, r, ["+"%char]. repeat split; auto; discriminate.
      - exists false, (c :: r), []. repeat split; auto; discriminate. }
    destruct Q as (neg & u & sg & EQ & Et & Hs & Hn). rewrite EQ in H. destruct (take_split u) as [Eu Du].
    pose proof (digits_val_nonneg (take_digits u) Du) as P.
    destruct (take_digits u) as [|d ds] eqn:T; [discriminate H|]. set (n' := digits_val (d :: ds)) in *.
    destruct ((_ <? _) || _) eqn:B; [discriminate H|]. apply orb_false_iff in B as [B1 B2]. apply Z.ltb_ge in B1. apply Z.leb_gt in B2.
    destruct (Nat.ltb_spec 0 (List.length (skipn (List.length (d :: ds)) u))) as [L|L]; [discriminate H|].
    assert (R : skipn (List.length (d :: ds)) u = []) by (destruct (skipn (List.length (d :: ds)) u); [reflexivity|cbn in L; lia]).
    rewrite R, app_nil_r in Eu. destruct ((if neg then - n' else n') <? 0) eqn:Z0; [discriminate H|]. apply Z.ltb_ge in Z0.
    exists ws, sg, (d :: ds). split; [rewrite <- Eu, <- Et; exact E|]. split; [exact Hw|].
    assert (N : n = if neg then - n' else n') by congruence.
    destruct neg.
    + assert (n = 0) by lia. assert (n' = 0) by lia. split; [right; right; split; [apply Hn; reflexivity|assumption]|]. split; [discriminate|]. split; [exact Du|]. unfold n' in *. lia.
    + split; [destruct Hs as [-> | [-> | ->]]; auto; exfalso; assert (false = true) by (apply Hn; reflexivity); discriminate|]. split; [discriminate|]. split; [exact Du|]. unfold n' in *. lia.
  - intros (ws & sg & ds & -> & Hw & Hs & Hd & D & V & L). unfold get_num_events, stoi_pos. cbv zeta. destruct ds as [|d ds]; [congruence|].
    pose proof D as D'. cbn [forallb] in D'. apply andb_prop in D' as [D1 _]. destruct (digit_plain d D1) as (P1 & P2 & P3).
    pose proof (digits_val_nonneg (d :: ds) D) as P.
    rewrite skip_spaces; [|exact Hw|intros c r E; destruct Hs as [->|[->|[-> _]]]; cbn [app] in E; injection E as <- _; [exact P1|reflexivity|reflexivity]].
    assert (Q : match sg ++ d :: ds with c :: r => if ceq c "-" then (true, r) else if ceq c "+" then (false, r) else (false, sg ++ d :: ds) | [] => (false, sg ++ d :: ds) end
      = (match sg with [c] => ceq c "-" | _ => false end, d :: ds)).
    { destruct Hs as [->|[->|[-> _]]]; cbn [app]; [rewrite P2, P3; reflexivity|reflexivity|reflexivity]. }
    rewrite Q, (take_all (d :: ds) D), skipn_all. set (neg := match sg with [c] => ceq c "-" | _ => false end).
    assert (N : (if neg then - digits_val (d :: ds) else digits_val (d :: ds)) = n) by (destruct Hs as [->|[->|[-> ->]]]; unfold neg; [exact V|exact V|rewrite V; reflexivity]).
    rewrite N. destruct (Z.ltb_spec n (- 2 ^ 31)); [lia|]. destruct (Z.leb_spec (2 ^ 31) n); [lia|]. cbn [orb]. cbn [List.length Nat.ltb Nat.leb].
    destruct (Z.ltb_spec n 0); [lia|]. reflexivity.
Qed.
Print Assumptions C86_number.

Example C86_number_case : get_num_events (b " +100") = Some 100 /\ get_num_events (b "-0") = Some 0 /\ get_num_events (b "100x") = None /\
  get_num_events (b "1e3") = None /\ get_num_events (b "2147483648") = None /\ get_num_events (b "-3") = None /\ get_num_events [] = None.
Proof. vm_compute. repeat split. Qed.

(** ** The hand-over *)

(** What Geant4 gets is the particle: code, momentum, energy and charge; and the mass that
    Geant4 computes from energy and momentum is the particle's. *)
Definition hands_over (p : part) (q : primary) : Prop :=
  g_pdg q = pid p /\ (g_px q, g_py q, g_pz q, g_E q) = (px p, py p, pz p, en p) /\ g_charge q = chg p.
Definition geant_mass (q : primary) : R := sqrt (g_E q * g_E q - (g_px q * g_px q + g_py q * g_py q + g_pz q * g_pz q)).

(** A generator that can make events, as after the configuration. *)
Definition ready (z : generator) : Prop :=
  Forall mode_ok (z_modes z) /\ good_target (gn_target (z_state z)) /\ (0 < gn_norm (z_state z))%R /\
  (forall x, 0 <= ns_pdf (gn_source (z_state z)) x)%R /\ (ns_min (gn_source (z_state z)) <= ns_max (gn_source (z_state z)))%R.

Lemma sample_keeps g s m d u fuel g' E i : sample_reaction g s m d u fuel = Ok (g', E, i) ->
  gn_target g' = gn_target g /\ gn_norm g' = gn_norm g /\ gn_source g' = gn_source g.
Proof.
  unfold sample_reaction. destruct (gn_rx g); [discriminate|]. destruct (rejection_sample _ _ _ _ _ _ _ _) as [[E0 m0]|]; cbn [bind]; [|discriminate].
  destruct (E_pdf g E0) as [[xs p]|]; cbn [bind]; [|discriminate]. cbv zeta. destruct (Nat.ltb _ _); [|discriminate]. intros H.
  assert (X : set_max (set_xs g xs) (Some m0) = g') by congruence. rewrite <- X. repeat split.
Qed.
Lemma create_keeps v gs z d fuel z' r : create_event v gs z d fuel = (z', r) -> ready z -> ready z' /\ z_modes z' = z_modes z /\ gn_source (z_state z') = gn_source (z_state z).
Proof.
  unfold create_event. intros H R. destruct (sample_reaction _ _ _ _ _ _) as [[[g' E] i]|] eqn:S.
  - destruct (sample_keeps _ _ _ _ _ _ _ _ _ S) as (K1 & K2 & K3). destruct R as (R1 & R2 & R3 & R4 & R5).
    assert (Q : exists o, z' = mkgen (z_modes z) g' o (z_deex z)).
    { destruct (nth_error (z_modes z) i); [|injection H as <- _; eexists; reflexivity]. destruct (full_event _ _ _ _ _ _ _ _); [|injection H as <- _; eexists; reflexivity].
      destruct (process_event _ _ _ _) as [[o' ev']|]; injection H as <- _; eexists; reflexivity. }
    destruct Q as (o & ->). unfold ready. cbn [z_modes z_state]. rewrite K1, K2, K3. repeat split; assumption.
  - assert (z' = z) by congruence. subst z'. repeat split; apply R.
Qed.

Section hand_over.
Context (v : env) (gs : Z -> res (Z * bool)) (ds : nat -> run_draws) (fuel : nat).

Lemma beam_spec n : forall k ops z t l z', env_ok v -> (forall i, good_run (ds i)) -> Forall good_uop ops -> z = fold_left (ustep v gs) ops fresh_generator -> ready z ->
  beam_on v gs ds fuel n k z = (t, l, Ok z') ->
  List.length l = n /\ t = List.concat (map begin_event (seq k n)) /\
  forall i ps, nth_error l i = Some ps -> exists m ev, In m (z_modes z) /\ pid (e_projectile ev) = ns_pid (gn_source (z_state z)) /\ pid (e_target ev) = r_b (mode_reaction m) /\
    Forall2 hands_over (final_parts ev) ps /\ (fits (r_d (mode_reaction m)) (e_others ev) -> balanced ev).
Proof.
  induction n as [|n IH]; intros k ops z t l z' Hv Hd HG Hz HR H; cbn [beam_on] in H.
  { assert (t = [] /\ l = []) as [-> ->] by (split; congruence). split; [reflexivity|]. split; [reflexivity|]. intros [|i] ps Q; discriminate Q. }
  destruct (create_event v gs z (ds k) fuel) as [z1 [ev|e]] eqn:C; [|discriminate H].
  destruct (beam_on v gs ds fuel n (S k) z1) as [[t1 l1] r1] eqn:B.
  assert (X : begin_event k ++ t1 = t /\ generate_primaries ev :: l1 = l /\ r1 = Ok z') by (repeat split; congruence). destruct X as (<- & <- & ->).
  destruct (create_keeps _ _ _ _ _ _ _ C HR) as (HR1 & M1 & S1).
  destruct (IH (S k) (ops ++ [UEvent (ds k) fuel]) z1 t1 l1 z' Hv Hd) as (I1 & I2 & I3).
  { apply Forall_app. split; [exact HG|]. constructor; [apply Hd|constructor]. }
  { rewrite fold_left_app, <- Hz. cbn [fold_left ustep]. rewrite C. reflexivity. }
  { exact HR1. }
  { exact B. }
  split; [cbn [List.length]; congruence|]. split; [cbn [seq map List.concat]; congruence|].
  intros [|i] ps Q; cbn [nth_error] in Q.
  - injection Q as <-. rewrite Hz in C, HR |- *. destruct HR as (R1 & R2 & R3 & R4 & R5).
    destruct (C62_event v gs ops (ds k) fuel z1 ev Hv HG (Hd k) R1 R2 R3 R4 R5 C) as (_ & m & E & Hm & _ & _ & _ & _ & _ & P1 & P2 & _ & _ & _ & P3).
    exists m, ev. split; [exact Hm|]. split; [exact P1|]. split; [exact P2|]. split; [|exact P3].
    unfold generate_primaries. induction (final_parts ev) as [|p r IHp]; cbn [map]; constructor; [|exact IHp]. repeat split.
  - destruct (I3 i ps Q) as (m & ev' & A1 & A2 & A3 & A4 & A5). exists m, ev'. rewrite <- M1, <- S1. exact (conj A1 (conj A2 (conj A3 (conj A4 A5)))).
Qed.

Lemma handed_total (f : part -> R) (g : primary -> R) l ps : (forall p q, hands_over p q -> f p = g q) -> Forall2 hands_over l ps -> total f l = fold_right Rplus 0%R (map g ps).
Proof. intros H F. induction F as [|p q l ps Hpq F IH]; [reflexivity|]. cbn [map fold_right]. rewrite <- IH, <- (H p q Hpq). reflexivity. Qed.

(** Geant4 gets as many events as were asked for, and each is an event of the generator: its
    primary particles are the final particles in order. They carry the energy, the momentum
    and the charge of the neutrino and its target, and have the masses that MARLEY gave them. *)
Theorem C86_hands_over n ops t l z' : let z := fold_left (ustep v gs) ops fresh_generator in
  env_ok v -> (forall i, good_run (ds i)) -> Forall good_uop ops -> ready z -> beam_on v gs ds fuel n 0 z = (t, l, Ok z') ->
  List.length l = n /\
  forall ps, In ps l -> exists m ev, In m (z_modes z) /\ pid (e_projectile ev) = ns_pid (gn_source (z_state z)) /\ pid (e_target ev) = r_b (mode_reaction m) /\
    Forall2 hands_over (final_parts ev) ps /\
    (fits (r_d (mode_reaction m)) (e_others ev) ->
      fold_right Rplus 0%R (map g_E ps) = (en (e_projectile ev) + en (e_target ev))%R /\
      fold_right Rplus 0%R (map g_px ps) = (px (e_projectile ev) + px (e_target ev))%R /\
      fold_right Rplus 0%R (map g_py ps) = (py (e_projectile ev) + py (e_target ev))%R /\
      fold_right Rplus 0%R (map g_pz ps) = (pz (e_projectile ev) + pz (e_target ev))%R /\
      fold_right Z.add 0 (map g_charge ps) = chg (e_projectile ev) + chg (e_target ev) /\
      Forall2 (fun p q => geant_mass q = mass p) (final_parts ev) ps).
Proof.
  cbv zeta. intros Hv Hd HG HR H. destruct (beam_spec n 0 ops _ t l z' Hv Hd HG eq_refl HR H) as (I1 & _ & I3). split; [exact I1|].
  intros ps Q. apply In_nth_error in Q as [i Q]. destruct (I3 i ps Q) as (m & ev & A1 & A2 & A3 & A4 & A5). exists m, ev. split; [exact A1|]. split; [exact A2|]. split; [exact A3|]. split; [exact A4|].
  intros F. destruct (A5 F) as ((B1 & B2 & B3 & B4) & B5 & _ & _ & B6).
  assert (T : forall f : part -> R, total f (initial_parts ev) = (f (e_projectile ev) + f (e_target ev))%R) by (intros f; unfold initial_parts, total; cbn; ring).
  rewrite T in B1, B2, B3, B4. rewrite B1, B2, B3, B4.
  split; [symmetry; apply handed_total; [intros p q (_ & K & _); congruence|exact A4]|]. split; [symmetry; apply handed_total; [intros p q (_ & K & _); congruence|exact A4]|].
  split; [symmetry; apply handed_total; [intros p q (_ & K & _); congruence|exact A4]|]. split; [symmetry; apply handed_total; [intros p q (_ & K & _); congruence|exact A4]|].
  split.
  - transitivity (zsum chg (initial_parts ev)); [|unfold initial_parts, zsum; cbn; ring]. rewrite B5. clear - A4. induction A4 as [|p q l ps (_ & _ & K) F IH]; [reflexivity|]. cbn [map fold_right zsum]. unfold zsum in IH. rewrite K, IH. reflexivity.
  - apply Forall_app in B6 as [_ B6]. clear - A4 B6. induction A4 as [|p q l ps (_ & K & _) F IH]; constructor; [|apply IH; inversion B6; assumption].
    apply Forall_inv in B6. destruct B6 as (M0 & M1 & M2). injection K as K1 K2 K3 K4. unfold geant_mass. rewrite K1, K2, K3, K4.
    replace (en p * en p - (px p * px p + py p * py p + pz p * pz p))%R with (mass p * mass p)%R by nra. apply sqrt_square. exact M0.
Qed.
Print Assumptions C86_hands_over.

(** A line is printed for the first of every hundred events. *)
Theorem C86_progress n ops t l z' : let z := fold_left (ustep v gs) ops fresh_generator in
  env_ok v -> (forall i, good_run (ds i)) -> Forall good_uop ops -> ready z -> beam_on v gs ds fuel n 0 z = (t, l, Ok z') ->
  t = List.concat (map (fun j => b "Beginning event #" ++ digits (100 * Z.of_nat j) ++ [nl]) (seq 0 ((n + 99) / 100))).
Proof.
  cbv zeta. intros Hv Hd HG HR H. destruct (beam_spec n 0 ops _ t l z' Hv Hd HG eq_refl HR H) as (_ & -> & _). clear H.
  induction n as [|n IH]; [reflexivity|]. rewrite seq_S, map_app, concat_app, IH, Nat.add_0_l. cbn [map List.concat]. rewrite app_nil_r. unfold begin_event.
  destruct (Z.eqb_spec (Z.of_nat n mod 100) 0) as [E|E].
  - assert (Q : ((S n + 99) / 100 = S ((n + 99) / 100))%nat /\ Z.of_nat n = 100 * Z.of_nat ((n + 99) / 100)).
    { pose proof (Nat.div_mod n 100 ltac:(lia)) as D. assert (M : (n mod 100 = 0)%nat) by (apply Nat2Z.inj; rewrite Nat2Z.inj_mod; change (Z.of_nat 100) with 100; rewrite E; reflexivity).
      set (q := (n / 100)%nat) in *. assert (n = 100 * q)%nat by lia.
      assert (A : ((n + 99) / 100 = q)%nat) by (symmetry; apply (Nat.div_unique (n + 99) 100 q 99); lia).
      assert (B : ((S n + 99) / 100 = S q)%nat) by (symmetry; apply (Nat.div_unique (S n + 99) 100 (S q) 0); lia).
      rewrite A, B. split; [reflexivity|lia]. }
    destruct Q as [-> Q]. rewrite seq_S, map_app, concat_app, Nat.add_0_l. cbn [map List.concat]. rewrite app_nil_r, <- Q, (show_nonneg (Z.of_nat n)) by lia. reflexivity.
  - assert (Q : ((S n + 99) / 100 = (n + 99) / 100)%nat).
    { pose proof (Nat.div_mod n 100 ltac:(lia)) as D. pose proof (Nat.mod_upper_bound n 100 ltac:(lia)) as U.
      assert (M : (n mod 100 <> 0)%nat) by (intros M; apply E; change 100 with (Z.of_nat 100); rewrite <- (Nat2Z.inj_mod n 100), M; reflexivity).
      set (q := (n / 100)%nat) in *. set (r := (n mod 100)%nat) in *.
      assert (A : ((n + 99) / 100 = S q)%nat) by (symmetry; apply (Nat.div_unique (n + 99) 100 (S q) (r - 1)); lia).
      assert (B : ((S n + 99) / 100 = S q)%nat) by (symmetry; apply (Nat.div_unique (S n + 99) 100 (S q) r); lia). congruence. }
    rewrite Q, app_nil_r. reflexivity.
Qed.
Print Assumptions C86_progress.

(** The program needs two arguments (status 1 otherwise) and a number (status 2 otherwise); without
    them no event is made. It ends with status 0 exactly if all events could be made. *)
Theorem C86_status create args t l r : marg4 create v gs ds fuel args = (t, l, r) ->
  (r = Ok 1 <-> (List.length args < 2)%nat) /\
  (r = Ok 2 <-> exists num cfg rest, args = num :: cfg :: rest /\ get_num_events num = None) /\
  (r = Ok 1 \/ r = Ok 2 -> l = []) /\
  (r = Ok 0 <-> exists num cfg rest n z t' l' z', args = num :: cfg :: rest /\ get_num_events num = Some n /\ create cfg = Ok z /\ beam_on v gs ds fuel (Z.to_nat n) 0 z = (t', l', Ok z')) /\
  (r = Ok 0 -> exists num n, nth_error args 0 = Some num /\ get_num_events num = Some n /\ Z.of_nat (List.length l) = n).
Proof.
  assert (LEN : forall n k z t l z', beam_on v gs ds fuel n k z = (t, l, Ok z') -> List.length l = n).
  { induction n as [|n IH]; intros k z t0 l0 z' H; cbn [beam_on] in H; [assert (l0 = []) as -> by congruence; reflexivity|].
    destruct (create_event v gs z (ds k) fuel) as [z1 [ev|e]]; [|discriminate H]. destruct (beam_on v gs ds fuel n (S k) z1) as [[t1 l1] r1] eqn:B.
    assert (X : generate_primaries ev :: l1 = l0 /\ r1 = Ok z') by (split; congruence). destruct X as [<- ->]. cbn [List.length]. rewrite (IH _ _ _ _ _ B). reflexivity. }
  intros H. destruct args as [|num [|cfg rest]]; cbn [marg4] in H.
  1,2: assert (l = [] /\ r = Ok 1) as [-> ->] by (split; congruence); cbn [List.length]; repeat split; try (intros; lia); try discriminate; try (intros (a & c & q & E & _); discriminate E);
    intros (a & c & q & n & z & t' & l' & z' & E & _); discriminate E.
  cbn [List.length]. destruct (get_num_events num) as [n|] eqn:G.
  2: { assert (l = [] /\ r = Ok 2) as [-> ->] by (split; congruence). repeat split; try (intros; lia); try discriminate.
       - intros _. exists num, cfg, rest. split; [reflexivity|exact G].
       - intros (a & c & q & n & z & t' & l' & z' & E & E2 & _). injection E as <- <- <-. congruence. }
  assert (NN : 0 <= n) by (apply C86_number in G as (ws & sg & dd & _ & _ & _ & _ & D & V & _); pose proof (digits_val_nonneg dd D); lia).
  destruct (create cfg) as [z|e] eqn:C.
  2: { assert (l = [] /\ r = Er e) as [-> ->] by (split; congruence). repeat split; try (intros; lia); try discriminate; try (intros [X|X]; discriminate X).
       - intros (a & c & q & E & E2). injection E as <- <- <-. congruence.
       - intros (a & c & q & n' & z & t' & l' & z' & E & _ & E2 & _). injection E as <- <- <-. congruence. }
  destruct (beam_on v gs ds fuel (Z.to_nat n) 0 z) as [[t1 l1] r1] eqn:B. assert (l1 = l /\ r = do _ <- r1; Ok 0) as [-> ->] by (split; congruence).
  destruct r1 as [z1|e]; cbn [bind].
  - split; [split; [discriminate|lia]|]. split; [split; [discriminate|intros (a & c & q & E & E2); injection E as <- <- <-; congruence]|]. split; [intros [X|X]; discriminate X|].
    split; [split; [intros _|reflexivity]; exists num, cfg, rest, n, z, t1, l, z1; repeat split; assumption|].
    intros _. exists num, n. split; [reflexivity|]. split; [exact G|]. rewrite (LEN _ _ _ _ _ _ B). lia.
  - split; [split; [discriminate|lia]|]. split; [split; [discriminate|intros (a & c & q & E & E2); injection E as <- <- <-; congruence]|]. split; [intros [X|X]; discriminate X|].
    split; [split; [discriminate|]|discriminate]. intros (a & c & q & n' & z0 & t' & l' & z' & E & E2 & E3 & E4). injection E as <- <- <-. rewrite G in E2. injection E2 as <-. rewrite C in E3. injection E3 as <-. rewrite B in E4. discriminate E4.
Qed.
Print Assumptions C86_status.

(** What is printed: the usage without two arguments; nothing for a bad number or configuration;
    otherwise how many events will be made, and then the progress. *)
Theorem C86_announces create args t l r : marg4 create v gs ds fuel args = (t, l, r) ->
  (r = Ok 1 -> t = b "Usage: marg4 NUM_EVENTS MARLEY_CONFIG_FILE" ++ [nl]) /\
  (r = Ok 2 -> t = []) /\
  (forall num cfg rest n, args = num :: cfg :: rest -> get_num_events num = Some n ->
     (forall e, create cfg = Er e -> t = [] /\ l = [] /\ r = Er e) /\
     (forall z, create cfg = Ok z -> exists u, t = b "Simulating " ++ digits n ++ b " events . . ." ++ [nl] ++ u /\
        u = fst (fst (beam_on v gs ds fuel (Z.to_nat n) 0 z)) /\ l = snd (fst (beam_on v gs ds fuel (Z.to_nat n) 0 z)))).
Proof.
  intros H. destruct args as [|num [|cfg rest]]; cbn [marg4] in H.
  1,2: assert (t = b "Usage: marg4 NUM_EVENTS MARLEY_CONFIG_FILE" ++ [nl] /\ r = Ok 1) as [-> ->] by (split; congruence);
    split; [reflexivity|]; split; [discriminate|]; intros a c q n E; discriminate E.
  destruct (get_num_events num) as [n|] eqn:G.
  2: { assert (t = [] /\ r = Ok 2) as [-> ->] by (split; congruence). split; [discriminate|]. split; [reflexivity|]. intros a c q n E E2. congruence. }
  assert (NN : 0 <= n) by (apply C86_number in G as (ws & sg & dd & _ & _ & _ & _ & D & V & _); pose proof (digits_val_nonneg dd D); lia).
  destruct (create cfg) as [z|e] eqn:C.
  - destruct (beam_on v gs ds fuel (Z.to_nat n) 0 z) as [[t1 l1] r1] eqn:B.
    assert (X : b "Simulating " ++ show_int n ++ b " events . . ." ++ [nl] ++ t1 = t /\ l1 = l /\ r = do _ <- r1; Ok 0) by (split; [|split]; congruence).
    destruct X as (<- & -> & ->). split; [destruct r1; discriminate|]. split; [destruct r1; discriminate|]. intros a c q m E E2.
    assert (num = a /\ cfg = c) as [<- <-] by (split; congruence). assert (n = m) by congruence. subst m. split; [congruence|]. intros z0 E3. assert (z = z0) by congruence. subst z0.
    exists t1. rewrite B. unfold show_int. destruct (Z.ltb_spec n 0); [lia|]. split; [reflexivity|split; reflexivity].
  - assert (t = [] /\ l = [] /\ r = Er e) as (-> & -> & ->) by (split; [|split]; congruence). split; [discriminate|]. split; [discriminate|]. intros a c q m E E2.
    assert (cfg = c) as <- by congruence. split; [intros e' E3; split; [reflexivity|split; [reflexivity|congruence]]|congruence].
Qed.
Print Assumptions C86_announces.
End hand_over.

(** A run of one event with a source of 15 MeV and one neutral-current reaction. *)
Example C86_case : let z := fold_left (ustep case_env run_gs) run_ops fresh_generator in
  env_ok case_env /\ (forall i : nat, good_run run_d) /\ Forall good_uop run_ops /\ ready z /\
  exists t l z', beam_on case_env run_gs (fun _ => run_d) 1 1 0 z = (t, l, Ok z') /\ t = b "Beginning event #0" ++ [nl].
Proof.
  cbv zeta. destruct C62_case as (A1 & A2 & A3 & A4 & _ & A5 & A6 & A7 & A8 & z' & ev & E). cbv zeta in *.
  split; [exact A1|]. split; [intros _; exact A3|]. split; [exact A2|]. split; [repeat split; assumption|].
  exists (b "Beginning event #0" ++ [nl]), [generate_primaries ev], z'. split; [|reflexivity]. cbn [beam_on]. rewrite E. reflexivity.
Qed.
