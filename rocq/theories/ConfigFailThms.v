(** Property C53, continued: the ways in which a configuration can be refused. *)
From Coq Require Import List Ascii String ZArith Reals Bool Lia Lra.
From Coq Require Import Floats.SpecFloat.
From Verif Require Import Base Dbl Json JsonProofs JsonRtProofs Pdg Names React Levels MatEl Mass NucReact Kin Rot Sample XReal Grid Quad Source SourceThms Target Gen GenThms
  Decay Run Config ConfigSpec ConfigProofs ConfigThms ConfigRunThms.
From Verif Require Files.
Import ListNotations.
Open Scope string_scope.
Open Scope list_scope.
Open Scope R_scope.

(** A decimal integer that does not fit in 32 bits. *)
Definition huge (s : bytes) : Prop :=
  exists ds, decimal ds /\ ((s = ds \/ s = "+"%char :: ds) /\ (2 ^ 31 <= digits_val ds)%Z \/ s = "-"%char :: ds /\ (2 ^ 31 < digits_val ds)%Z).

(** The atoms a configuration speaks of: those of the reactions in the files it lists, and
    the nuclides of its target. *)
Definition spoken_of (c : cenv) (j : json) (atom : Z) : Prop :=
  (exists names n f m, held j "reactions" = Some (JArr names) /\ In n names /\ file_modes c n = Ok f /\ In m f /\ atom = x_atom (mode_rxn m)) \/
  (exists spec ns i, held j "target" = Some spec /\ held spec "nuclides" = Some (JArr ns) /\ In (JInt i) ns /\ atom = to_int i).
Definition nameless (atom : Z) : Prop := ~ exists s, In (particle_Z atom, s) element_symbols.

(** What a refused configuration throws. *)
Definition failure (c : cenv) (j : json) (e : err) : Prop :=
  e = MarleyErr \/
  e = StdRange /\ (exists spec s, held j "source" = Some spec /\ (word spec "neutrino" = Some s \/ word spec "rule" = Some s) /\ huge s) \/
  e = StdRange /\ (exists atom, spoken_of c j atom /\ nameless atom) \/
  (exists names n, held j "reactions" = Some (JArr names) /\ In n names /\ file_modes c n = Er e).

Definition only {A} (P : err -> Prop) (r : res A) : Prop := forall e, r = Er e -> P e.
Lemma only_ok {A} P (x : A) : only P (Ok x). Proof. intros e H; discriminate H. Qed.
Lemma only_er {A} (P : err -> Prop) e : P e -> only (A := A) P (Er e). Proof. intros H e' H'; injection H' as <-; exact H. Qed.
Lemma only_bind {A B} P (r : res A) (k : A -> res B) : only P r -> (forall x, r = Ok x -> only P (k x)) -> only P (bind r k).
Proof. intros H1 H2. destruct r as [x|e]; cbn [bind]; [apply H2; reflexivity|]. apply only_er, H1. reflexivity. Qed.
Lemma only_mono {A} (P Q : err -> Prop) (r : res A) : (forall e, P e -> Q e) -> only P r -> only Q r. Proof. intros H K e E. apply H, K, E. Qed.

Notation marley := (fun e => e = MarleyErr).

Ltac op := match goal with
  | |- only _ (Ok _) => apply only_ok
  | |- only _ (Er MarleyErr) => apply only_er; reflexivity
  | |- only _ (bind _ _) => apply only_bind; [|intros ? ?]
  | |- only _ (if ?c then _ else _) => destruct c eqn:?
  end.

Lemma only_number k j d : only marley (number (b k) j d).
Proof. unfold number. key k j; [|op]. destruct (to_double v) as [x []]; op. Qed.
Lemma only_double k j : only marley (source_double (b k) j).
Proof. unfold source_double. destruct (has_key (b k) j); [apply only_number|op]. Qed.
Lemma only_text k j d : only marley d -> only marley (text (b k) j d).
Proof. intros H. unfold text. key k j; [|exact H]. destruct v; op. Qed.
Lemma only_numbers l : only marley (numbers l).
Proof. induction l as [|v l IH]; cbn [numbers]; [op|]. destruct (to_double v) as [x []]; [|op]. op; [exact IH|op]. Qed.
Lemma only_vector k j : only marley (get_vector (b k) j).
Proof. unfold get_vector. key k j; [|op]. destruct v; try op. apply only_numbers. Qed.
Lemma only_positive x : only marley (check_positive x). Proof. unfold check_positive. repeat op. Qed.
Lemma only_nonneg x : only marley (check_nonnegative x). Proof. unfold check_nonnegative. repeat op. Qed.
Lemma only_pid p : only marley (check_pid p). Proof. unfold check_pid. repeat op. Qed.
Lemma only_points pts : forall s, only marley (check_points pts s).
Proof. induction pts as [|[x y] r IH]; intros s; cbn [check_points]; [op|]. op; [op|]. cbv zeta. op; [op|]. op; [apply IH|]. destruct x0. op. Qed.
Lemma only_bins es : forall ws, only marley (bin_densities es ws).
Proof.
  induction es as [|e [|e' r] IH]; intros [|w ws]; cbn [bin_densities]; try solve [op]. op; [op|]. op; [exact (IH ws)|op].
Qed.
Lemma only_grid pid g : only marley (make_grid_source pid g).
Proof. unfold make_grid_source. op; [apply only_pid|]. op; [op|]. op; [apply only_points|]. destruct x0. repeat op. Qed.
Lemma only_grid_xy pid xs ys im : only marley (make_grid_source_xy pid xs ys im).
Proof. unfold make_grid_source_xy. op; [apply only_pid|]. op; [unfold make_grid; repeat op|apply only_grid]. Qed.

Lemma stoi_digits_huge ds : decimal ds -> stoi_digits ds = (if Z.leb (2 ^ 31) (digits_val ds) then Er StdRange else Ok (digits_val ds)).
Proof. intros _. unfold stoi_digits. cbv zeta. destruct (Z.leb_spec (digits_val ds) (2 ^ 31 - 1)); destruct (Z.leb_spec (2 ^ 31) (digits_val ds)); try reflexivity; lia. Qed.

Lemma only_rule s : only (fun e => e = MarleyErr \/ e = StdRange /\ huge s) (interpolation_method s).
Proof.
  unfold interpolation_method. op; [|repeat op; apply only_er; left; reflexivity].
  apply all_digits_decimal in Heqb. op; [|op]. unfold stoi. destruct s as [|c r]; [destruct Heqb as [N _]; congruence|].
  pose proof Heqb as [_ F]. inversion F as [|? ? D _]; subst.
  destruct (ceq c "-") eqn:E1; [apply ceq_true in E1; subst c; discriminate D|]. destruct (ceq c "+") eqn:E2; [apply ceq_true in E2; subst c; discriminate D|].
  rewrite stoi_digits_huge by exact Heqb. destruct (Z.leb_spec (2 ^ 31) (digits_val (c :: r))) as [L|L]; [|apply only_ok]. apply only_er. right. split; [reflexivity|]. exists (c :: r). auto.
Qed.

Lemma only_neutrino s : only (fun e => e = MarleyErr \/ e = StdRange /\ huge s) (neutrino_pdg s).
Proof.
  unfold neutrino_pdg. op; [|destruct (neutrino_of_string s); [op|apply only_er; left; reflexivity]].
  op; [|op; [op|apply only_er; left; reflexivity]]. unfold is_integer in Heqb. unfold stoi. destruct s as [|c r]; [discriminate|].
  destruct (ceq c "-") eqn:E1.
  - apply ceq_true in E1. subst c. cbn [orb] in Heqb. apply all_digits_decimal in Heqb. cbv zeta. op; [op|]. apply only_er. right. split; [reflexivity|]. exists r. split; [exact Heqb|]. right. split; [reflexivity|]. apply Z.leb_gt. assumption.
  - cbn [orb] in Heqb. destruct (ceq c "+") eqn:E2.
    + apply ceq_true in E2. subst c. apply all_digits_decimal in Heqb. rewrite stoi_digits_huge by exact Heqb. destruct (Z.leb_spec (2 ^ 31) (digits_val r)) as [L|L]; [|apply only_ok]. apply only_er. right. split; [reflexivity|]. exists r. auto.
    + apply all_digits_decimal in Heqb. rewrite stoi_digits_huge by exact Heqb. destruct (Z.leb_spec (2 ^ 31) (digits_val (c :: r))) as [L|L]; [|apply only_ok]. apply only_er. right. split; [reflexivity|]. exists (c :: r). auto.
Qed.

Lemma linlin_small : ~ huge (b "linlin").
Proof. intros (ds & [N F] & [[[H|H] _]|[H _]]); [|discriminate H|discriminate H]. subst ds. inversion F as [|? ? D _]; subst. discriminate D. Qed.

Lemma only_make_source type pdg j : only (fun e => e = MarleyErr \/ e = StdRange /\ exists s, word j "rule" = Some s /\ huge s) (make_source type pdg j).
Proof.
  assert (M : forall A (r : res A), only marley r -> only (fun e => e = MarleyErr \/ e = StdRange /\ exists s, word j "rule" = Some s /\ huge s) r) by (intros A r; apply only_mono; intros e; left; assumption).
  unfold make_source.
  op; [apply M; repeat (op || apply only_double || apply only_positive); unfold make_mono; repeat (op || apply only_pid)|].
  op; [apply M; unfold make_dar; repeat (op || apply only_pid)|].
  op; [apply M; unfold make_fermi; repeat (op || apply only_double || apply only_positive || apply only_number || apply only_nonneg || apply only_pid)|].
  op; [apply M; unfold make_beta; repeat (op || apply only_double || apply only_positive || apply only_number || apply only_nonneg || apply only_pid)|].
  op; [apply M; repeat (op || apply only_vector || apply only_double || apply only_positive || apply only_bins || apply only_grid_xy)|].
  op; [|apply only_er; left; reflexivity].
  op; [apply M, only_vector|]. op; [apply M, only_vector|]. op; [apply M, only_text; op|]. op; [|apply M, only_grid_xy].
  eapply only_mono; [|apply only_rule]. cbv beta. intros e [He|[He Hu]]; [left; exact He|]. right. split; [exact He|].
  match goal with T : text (b "rule") j _ = Ok ?s |- _ => apply text_word in T; destruct T as [T|[_ T]]; [exists s; auto|injection T as <-; exfalso; exact (linlin_small Hu)] end.
Qed.

Lemma made_nsource type pdg j s : make_source type pdg j = Ok s -> exists ns, as_nsource s = Ok ns.
Proof.
  assert (G : forall p g, make_grid_source p g = Ok s -> exists ns, as_nsource s = Ok ns).
  { intros p g H. unfold make_grid_source in H. bind_in H. destruct (Nat.ltb (List.length (g_pts g)) 2) eqn:L; [discriminate|]. bind_in H. destruct a0 as [pts sm].
    destruct (Rle_dec sm 0); [discriminate|]. injection H as <-. unfold as_nsource, source_Emin, source_Emax, grid_front, grid_back. cbn [g_pts].
    assert (N : pts <> []). { apply Nat.ltb_ge in L. destruct (g_pts g) as [|[x y] q]; [cbn in L; lia|]. cbn [check_points] in E0. destruct (Rlt_dec x 0); [discriminate|]. cbv zeta in E0. destruct (Rlt_dec y 0); [discriminate|].
      bind_in E0. destruct a0. injection E0 as <- _. discriminate. }
    destruct pts as [|p0 pts]; [congruence|]. cbn [bind]. destruct (rev (p0 :: pts)) as [|q qs] eqn:ER; [apply (f_equal (@rev _)) in ER; rewrite rev_involutive in ER; discriminate ER|]. cbn [bind]. eexists. reflexivity. }
  assert (G2 : forall p xs ys im, make_grid_source_xy p xs ys im = Ok s -> exists ns, as_nsource s = Ok ns).
  { intros p xs ys im H. unfold make_grid_source_xy in H. bind_in H. bind_in H. exact (G _ _ H). }
  unfold make_source. intros H.
  repeat match type of H with (if ?c then _ else _) = _ => destruct c end; try discriminate H;
    repeat (bind_in H); repeat match type of H with (if ?c then _ else _) = _ => destruct c; try discriminate H end; repeat (bind_in H); try (exact (G2 _ _ _ _ H)).
  - unfold make_mono in H. bind_in H. injection H as <-. eexists. reflexivity.
  - unfold make_dar in H. bind_in H. destruct (_ && _)%bool; [discriminate|]. injection H as <-. eexists. reflexivity.
  - unfold make_fermi in H. bind_in H. injection H as <-. eexists. reflexivity.
  - unfold make_beta in H. bind_in H. destruct (Rlt_dec _ 1); [discriminate|]. injection H as <-. eexists. reflexivity.
Qed.

Lemma word_of_text k j s : text (b k) j (Er MarleyErr) = Ok s -> word j k = Some s.
Proof. intros H. apply text_word in H. destruct H as [H|[_ H]]; [exact H|discriminate H]. Qed.

Lemma only_source c j def o : only (failure c j) (prepare_source j (building default_source true def [] None o true)).
Proof.
  assert (M : forall A (r : res A), only marley r -> only (failure c j) r) by (intros A r; apply only_mono; intros e He; left; exact He).
  unfold prepare_source. op; [apply M; op; [op; [apply only_number|op]|op]|].
  assert (Z0 : exists def', x = building default_source true def' [] None o true).
  { destruct (has_key (b "energy_pdf_max") j); [bind_in H; injection H as <-; eexists; reflexivity|injection H as <-; eexists; reflexivity]. }
  destruct Z0 as (def' & ->). clear H. key "source" j; cbn [negb]; [|op].
  assert (G : forall spec, held j "source" = Some spec -> only (failure c j) (do type <- text (b "type") spec (Er MarleyErr);
        do nu <- text (b "neutrino") spec (Er MarleyErr);
        do pdg <- neutrino_pdg nu;
        do s <- make_source type pdg spec;
        do g <- (if has_key (b "weight_flux") spec then
                   do v <- at_key (b "weight_flux") spec;
                   match v with JBool w => Ok (set_weight_flux (z_state (building default_source true def' [] None o true)) w) | _ => Er MarleyErr end
                 else Ok (z_state (building default_source true def' [] None o true)));
        do ns <- as_nsource s;
        let '(g', r) := set_source g (Some ns) in
        do _ <- r; Ok (with_state (building default_source true def' [] None o true) g'))).
  { intros spec HS. op; [apply M, only_text; op|]. op; [apply M, only_text; op|]. apply word_of_text in H0.
    op. { eapply only_mono; [|apply only_neutrino]. intros e [He|[He Hu]]; [left; exact He|]. right. left. split; [exact He|]. exists spec, x0. auto. }
    op. { eapply only_mono; [|apply only_make_source]. intros e [He|[He (s & Hs & Hu)]]; [left; exact He|]. right. left. split; [exact He|]. exists spec, s. auto. }
    op. { apply M. key "weight_flux" spec; [destruct v0|]; op. }
    destruct (made_nsource _ _ _ _ H2) as (ns & ->). cbn [bind]. 
    assert (RX : gn_rx x3 = []). { key "weight_flux" spec; [destruct v0; try discriminate H3|]; injection H3 as <-; reflexivity. }
    unfold set_source. cbn [gn_rx]. rewrite RX. cbn [bind]. op. }
  destruct v; try (apply G; exact V). op.
Qed.

Lemma only_atom_name atom : only (fun e => e = StdRange /\ nameless atom) (atom_name atom).
Proof.
  unfold atom_name, element_symbol. intros e H. destruct (assoc (particle_Z atom) element_symbols) as [s|] eqn:E; [discriminate|]. injection H as <-. split; [reflexivity|].
  intros (s & Hs). revert E Hs. generalize element_symbols. induction l as [|[k v] l IH]; cbn [assoc In]; [tauto|]. destruct (Z.eqb_spec (particle_Z atom) k) as [|N]; [discriminate|]. intros E [K|K]; [congruence|auto].
Qed.

Lemma only_named c j atom : spoken_of c j atom -> only (failure c j) (atom_name atom).
Proof. intros H. eapply only_mono; [|apply only_atom_name]. intros e [-> N]. right. right. left. split; [reflexivity|]. exists atom. auto. Qed.

Lemma only_files c j src w def o d names0 names : held j "reactions" = Some (JArr names0) -> incl names names0 ->
  forall seen ms, only (failure c j) (load_files c names seen (building src w def ms None o d)).
Proof.
  intros HR. induction names as [|n names IH]; intros I seen ms; cbn [load_files]; [op|].
  assert (IN : In n names0) by (apply I; left; reflexivity). assert (I' : incl names names0) by (intros x Hx; apply I; right; exact Hx).
  destruct (Files.find_file _ _ _) as [|ch p] eqn:EF; [apply only_er; left; reflexivity|].
  assert (FM : file_modes c n = load_modes c (Files.f_text (ce_files c) (ch :: p))) by (unfold file_modes; rewrite EF; reflexivity).
  op; [intros e He; right; right; right; exists names0, n; rewrite FM; auto|].
  destruct x as [|m f]; [apply only_er; left; reflexivity|]. cbv zeta.
  assert (SP : spoken_of c j (fst (mode_key m))) by (left; exists names0, n, (m :: f), m; rewrite FM; repeat split; auto; left; reflexivity).
  op.
  - op; [destruct (ce_warn c); [apply only_named, SP|op]|]. apply IH; exact I'.
  - op; [destruct (ce_info c); [apply only_named, SP|op]|]. rewrite adds_form. cbn [bind]. apply IH; exact I'.
Qed.

Lemma only_reactions c j src w def o d : only (failure c j) (prepare_reactions c j (building src w def [] None o d)).
Proof.
  unfold prepare_reactions. key "reactions" j; [|apply only_er; left; reflexivity]. destruct v; try (apply only_er; left; reflexivity); [op|].
  destruct l as [|n l]; [apply only_er; left; reflexivity|]. eapply only_files; [exact V|apply incl_refl].
Qed.

Lemma only_fracs c j lg ns : (forall n, In n ns -> spoken_of c j n) -> forall fs s, only (failure c j) (check_fracs lg ns fs s).
Proof.
  induction ns as [|n ns IH]; intros SP fs s; cbn [check_fracs]; [op|]. destruct fs as [|f fs]; [op|].
  assert (S1 : spoken_of c j n) by (apply SP; left; reflexivity). assert (S2 : forall k, In k ns -> spoken_of c j k) by (intros k Hk; apply SP; right; exact Hk).
  op; [op; [apply only_named, S1|apply only_er; left; reflexivity]|]. op; [|apply IH, S2]. op; [|apply IH, S2]. destruct lg; [apply only_named, S1|op].
Qed.
Lemma only_fill c j l : (forall n f, In (n, f) l -> spoken_of c j n) -> forall t, only (failure c j) (fill l t).
Proof.
  induction l as [|[n f] l IH]; intros SP t; cbn [fill]; [op|]. destruct (assoc n t).
  - op; [apply only_named, (SP n f); left; reflexivity|apply only_er; left; reflexivity].
  - apply IH. intros k g Hk. apply (SP k g). right. exact Hk.
Qed.
Lemma fill_keys l : forall t t', fill l t = Ok t' -> forall n f, In (n, f) t' -> In n (map fst t) \/ In n (map fst l).
Proof.
  induction l as [|[k g] l IH]; intros t t' H n f Hn; cbn [fill] in H.
  - injection H as <-. left. apply (in_map fst) in Hn. exact Hn.
  - destruct (assoc k t); [destruct (atom_name k); discriminate H|]. destruct (IH _ _ H n f Hn) as [K|K]; [|right; right; exact K].
    assert (PK : In n (map fst (put k g t)) -> n = k \/ In n (map fst t)).
    { clear. induction t as [|[k' v'] r IH]; cbn [put map fst In]; [intros [H|[]]; auto|]. destruct (Z.ltb k k'); [cbn [map fst In]; intros [H|H]; auto|]. destruct (Z.eqb_spec k k') as [->|N]; cbn [map fst In]; [intros [H|H]; auto|]. intros [H|H]; [auto|]. destruct (IH H); auto. }
    destruct (PK K) as [->|K']; [right; left; reflexivity|left; exact K'].
Qed.

Lemma only_finish c j src w def ms o d ns fs : (forall n, In n ns -> spoken_of c j n) ->
  only (failure c j) (do t <- make_target (ce_warn c) ns fs;
    do _ <- (if (ce_info c && has_single_nuclide t)%bool then match t with (n, _) :: _ => atom_name n | [] => Ok [] end else Ok []);
    let '(g, r) := set_target (z_state (building src w def ms None o d)) (Some t) in
    do _ <- r; Ok (with_state (building src w def ms None o d) g)).
Proof.
  intros SP. op.
  - unfold make_target. op; [apply only_er; left; reflexivity|]. op; [apply only_er; left; reflexivity|]. op; [apply only_fracs, SP|]. op; [apply only_er; left; reflexivity|].
    apply only_fill. intros n0 f0 H0. apply SP. exact (in_combine_l _ _ _ _ H0).
  - op.
    + op; [|op]. destruct x as [|[n f] t]; [op|]. apply only_named, SP.
      unfold make_target in H. destruct (negb _); [discriminate|]. destruct (Nat.eqb _ 0); [discriminate|]. bind_in H. destruct (Rle_dec a 0); [discriminate|].
      destruct (fill_keys _ _ _ H n f (or_introl eq_refl)) as [[]|K]. apply in_map_iff in K. destruct K as ([n' f'] & <- & K). exact (in_combine_l _ _ _ _ K).
    + unfold set_target. cbn [z_state building gn_rx gn_hold]. unfold Gen.normalize. cbn [gn_hold]. destruct (map mode_rxn ms); cbn [bind]; op.
Qed.

Lemma only_listed ns : forall fs, only marley (listed_atoms ns fs).
Proof.
  induction ns as [|n ns IH]; intros fs; cbn [listed_atoms]; [op|]. destruct fs as [|f fs]; [op|]. destruct (to_long n) as [i ok]. op; [op|]. op; [unfold Target.target_atom; repeat op|].
  destruct (to_double f) as [y ok']. op; [op|]. op; [apply IH|]. destruct x0. op.
Qed.
Lemma listed_in ns : forall fs l m, listed_atoms ns fs = Ok (l, m) -> forall a, In a l -> exists i, In (JInt i) ns /\ a = to_int i.
Proof.
  induction ns as [|n ns IH]; intros fs l m H a Ha; cbn [listed_atoms] in H; [injection H as <- _; destruct Ha|]. destruct fs as [|f fs]; [injection H as <- _; destruct Ha|].
  destruct n; cbn [to_long negb] in H; try discriminate H. bind_in H. destruct (to_double f) as [y ok']. destruct (negb ok'); [discriminate|]. bind_in H. destruct a1 as [l' m']. injection H as <- _.
  destruct Ha as [<-|Ha].
  - unfold Target.target_atom in E. destruct (Z.leb _ 0); [discriminate|]. injection E as <-. exists z. split; [left; reflexivity|reflexivity].
  - destruct (IH _ _ _ E0 a Ha) as (i & Hi & ->). exists i. split; [right; exact Hi|reflexivity].
Qed.

Lemma chosen_spoken c j names fs : held j "reactions" = Some (JArr names) -> Forall2 (fun n f => file_modes c n = Ok f /\ f <> []) names fs ->
  forall m, In m (chosen [] fs) -> spoken_of c j (x_atom (mode_rxn m)).
Proof.
  intros HR F m Hm. destruct (chosen_in _ _ _ Hm) as (f & Hf & Hmf). left.
  assert (X : exists n, In n names /\ file_modes c n = Ok f). { clear HR Hm. induction F as [|n0 f0 ns fs [H1 _] F IH]; [destruct Hf|]. destruct Hf as [->|Hf]; [exists n0; split; [left; reflexivity|exact H1]|]. destruct (IH Hf) as (n & Hn & H). exists n. split; [right; exact Hn|exact H]. }
  destruct X as (n & Hn & H). exists names, n, f, m. auto.
Qed.

Lemma only_target c j src w def ms o d : (forall m, In m ms -> spoken_of c j (x_atom (mode_rxn m))) -> only (failure c j) (prepare_target c j (building src w def ms None o d)).
Proof.
  intros SP. unfold prepare_target. cbv zeta. key "target" j; cbn [negb].
  - destruct v as [| | | | | |l]; try (apply only_er; left; reflexivity). set (v := JObj l) in *. rewrite (has_value "nuclides" v). destruct (held v "nuclides") as [n|] eqn:VN; cbn [negb]; [|apply only_er; left; reflexivity]. rewrite (at_value _ _ _ VN). cbn [bind].
    destruct n as [| | | | |ns|]; try (apply only_er; left; reflexivity). rewrite (has_value "atom_fractions" v). destruct (held v "atom_fractions") as [f|] eqn:VF; cbn [negb]; [|apply only_er; left; reflexivity]. rewrite (at_value _ _ _ VF). cbn [bind].
    destruct f as [| | | | |fs|]; try (apply only_er; left; reflexivity). op; [apply only_er; left; reflexivity|]. op; [apply only_er; left; reflexivity|].
    op; [eapply only_mono; [|apply only_listed]; intros e He; left; exact He|]. destruct x as [l' m']. apply only_finish. intros a Ha. destruct (listed_in _ _ _ _ H a Ha) as (i & Hi & ->).
    right. exists v, ns, i. auto.
  - change (gn_rx (z_state (building src w def ms None o d))) with (map mode_rxn ms). destruct (map mode_rxn ms) as [|x l] eqn:EM; [op|]. rewrite <- EM. apply only_finish. intros a Ha.
    apply (proj1 (atom_set_spec _)) in Ha. rewrite map_map in Ha. apply in_map_iff in Ha. destruct Ha as (m & <- & Hm). apply SP, Hm.
Qed.

Lemma only_setting k least j : only marley (setting (b k) least j).
Proof. unfold setting. key k j; [|op]. destruct (to_long v) as [n ok]. repeat op. Qed.

Lemma only_direction j z : only marley (prepare_direction j z).
Proof.
  unfold prepare_direction. key "direction" j; [|op]. destruct v; try solve [repeat op]. repeat (op || apply only_number). unfold set_direction, Rot.normalize. cbv zeta. repeat op.
Qed.

Lemma only_cmode j : only marley (coulomb_mode j).
Proof. unfold coulomb_mode. key "coulomb_mode" j; [|op]. destruct v; try op. unfold cmode_of_bytes. destruct (find _ _) as [[? ?]|]; op. Qed.

Lemma only_describe c j z ms : (forall m, In m ms -> spoken_of c j (x_atom (mode_rxn m))) -> ms = [] \/ gn_target (z_state z) <> None -> only (failure c j) (describe z ms).
Proof.
  induction ms as [|m ms IH]; intros SP T; cbn [describe]; [op|]. destruct (gn_target (z_state z)) as [t|] eqn:ET; [|destruct T; congruence]. cbv zeta.
  op; [op; [|op]; destruct (r_proc _); try op; apply only_named, SP; left; reflexivity|]. apply IH; [intros k Hk; apply SP; right; exact Hk|right; rewrite ?ET; discriminate].
Qed.

Lemma only_normalize g : slots g -> only marley (snd (Gen.normalize g)).
Proof.
  intros H. unfold Gen.normalize. destruct (gn_hold g); [cbn [snd]; op|]. cbv zeta. rewrite E_pdf_ok by exact H. cbv iota beta. cbn [snd].
  match goal with |- only _ (if Rle_dec ?n 0 then _ else _) => generalize n end. intros n. op; op.
Qed.

Lemma with_cmode_atom m x : x_atom (mode_rxn (with_cmode m x)) = x_atom (mode_rxn x). Proof. destruct x; reflexivity. Qed.

(** A configuration is refused with a MARLEY error, with one exception: std::out_of_range
    escapes for an integer that is too large given as a neutrino type or interpolation
    rule, and for an atom of an element without a symbol when a message names it. What goes
    wrong while a listed file is read is passed on. In particular nothing undefined happens
    except in reading those files. *)
Theorem C53_failures c j e : create_generator c j = Er e -> failure c j e.
Proof.
  assert (M : forall A (r : res A), only marley r -> only (failure c j) r) by (intros A r; apply only_mono; intros e' He; left; exact He).
  revert e. change (only (failure c j) (create_generator c j)). unfold create_generator.
  op; [apply M; key "seed" j; [destruct (to_long v) as [n []]|]; op|]. rewrite start_eq. cbv zeta.
  op; [apply M, only_direction|]. destruct (direction_form _ _ H0) as (o & ->).
  op; [apply M, only_setting|]. op; [apply M, only_setting|].
  op; [apply only_source|]. destruct (source_form _ _ _ _ eq_refl H3) as (src & w & def & -> & _).
  op; [apply only_reactions|].
  assert (R : exists ms, x2 = building src w def ms None o true /\ (forall m, In m ms -> spoken_of c j (x_atom (mode_rxn m)))).
  { destruct (reactions_form _ _ _ _ _ _ _ _ H4) as [[_ ->]|(names & fs & HR & _ & F & ->)]; [exists []; split; [reflexivity|intros ? []]|]. exists (chosen [] fs). split; [reflexivity|]. exact (chosen_spoken _ _ _ _ HR F). }
  destruct R as (ms & -> & SP). op; [apply only_target, SP|].
  assert (T : exists t, x2 = building src w def ms t o true /\ (ms = [] \/ t <> None)).
  { destruct (target_form _ _ _ _ _ _ _ _ _ H5) as [[G ->]|(ns & fs & t & _ & _ & ->)]; [exists None|exists (Some t); split; [reflexivity|right; discriminate]]. split; [reflexivity|]. left.
    unfold given in G. destruct (held j "target").
    - destruct (held j0 "nuclides") as [[]|]; try discriminate G. destruct (held j0 "atom_fractions") as [[]|]; try discriminate G. destruct (negb _); [discriminate|]. destruct (Nat.eqb _ 0); [discriminate|]. bind_in G. discriminate G.
    - destruct ms; [reflexivity|discriminate G]. }
  destruct T as (t & -> & T). op; [apply M; key "do_deexcitations" j; [destruct v|]; op|].
  assert (D : exists d, x2 = building src w def ms t o d). { key "do_deexcitations" j; [destruct v|]; injection H6 as <-; eexists; reflexivity. }
  destruct D as (d & ->). op; [apply M; key "reactions" j; [destruct v|]; op|]. op; [op|].
  op; [apply M, only_cmode|]. op; [apply M; op|].
  assert (SP' : forall m, In m (map (with_cmode x3) ms) -> spoken_of c j (x_atom (mode_rxn m))). { intros m Hm. apply in_map_iff in Hm. destruct Hm as (m0 & <- & Hm). rewrite with_cmode_atom. apply SP, Hm. }
  op; [apply only_describe; [exact SP'|]; destruct T as [->|T]; [left; reflexivity|right; exact T]|].
  match goal with |- only _ (let '(_, _) := Gen.normalize ?g in _) => destruct (Gen.normalize g) as [g' r] eqn:EN; assert (SL : slots g) by (unfold slots; cbn [set_hold set_cmode building z_state gn_xs gn_rx z_modes]; rewrite !map_length; reflexivity) end.
  op; [|op]. apply M. rewrite <- (f_equal snd EN : _ = r). apply only_normalize, SL.
Qed.
Print Assumptions C53_failures.

(** ** Each kind of refusal occurs *)

Definition big_neutrino : json := JObj [(b "source", JObj [(b "type", JStr (b "mono")); (b "neutrino", JStr (b "3000000000")); (b "energy", JInt 10)])].
Definition odd_nuclide : json := JObj [(b "reactions", JNull); (b "target", JObj [(b "nuclides", JArr [JInt 1001303000]); (b "atom_fractions", JArr [JInt (-1)])])].
Definition empty_file : json := JObj [(b "reactions", JArr [JStr (b "a")])].

Lemma minus_one : dbl_R (dbl_of_int (-1)) < 0.
Proof.
  assert (E : exists m e, dbl_of_int (-1) = S754_finite true m e) by (eexists; eexists; vm_compute; reflexivity). destruct E as (m & e & ->). cbn [dbl_R].
  assert (P : 0 < powerRZ 2 e) by (apply powerRZ_lt; lra). assert (Q : 0 < IZR (Z.pos m)) by (apply IZR_lt; lia). nra.
Qed.

Lemma odd_refused c : create_generator c odd_nuclide = Er StdRange.
Proof.
  unfold create_generator. assert (K : forall k, In k ["seed"; "direction"; "fragment_lmax"; "gamma_lmax"; "energy_pdf_max"; "source"]%string -> has_key (b k) odd_nuclide = false).
  { intros k H. cbn [In] in H. repeat (destruct H as [<-|H]; [reflexivity|]). destruct H. }
  rewrite (K "seed"%string) by (cbn; tauto). cbn [bind]. cbv zeta. unfold prepare_direction. rewrite (K "direction"%string) by (cbn; tauto). cbn [bind].
  unfold setting. rewrite (K "fragment_lmax"%string), (K "gamma_lmax"%string) by (cbn; tauto). cbn [bind]. unfold prepare_source. rewrite (K "energy_pdf_max"%string), (K "source"%string) by (cbn; tauto). cbn [bind negb].
  change (prepare_reactions c odd_nuclide (set_hold true fresh_generator)) with (Ok (set_hold true fresh_generator)). cbn [bind].
  unfold prepare_target. cbv zeta. change (negb (has_key (b "target") odd_nuclide)) with false. cbv iota.
  set (spec := JObj [(b "nuclides", JArr [JInt 1001303000]); (b "atom_fractions", JArr [JInt (-1)])]). change (at_key (b "target") odd_nuclide) with (Ok spec). cbn [bind]. unfold spec at 1.
  change (negb (has_key (b "nuclides") spec)) with false. cbv iota. change (at_key (b "nuclides") spec) with (Ok (JArr [JInt 1001303000])). cbn [bind].
  change (negb (has_key (b "atom_fractions") spec)) with false. cbv iota. change (at_key (b "atom_fractions") spec) with (Ok (JArr [JInt (-1)])). cbn [bind List.length Nat.eqb negb].
  cbn [listed_atoms to_long to_double negb]. change (Target.target_atom (to_int 1001303000)) with (Ok 1001303000%Z). cbn [bind].
  unfold make_target. cbn [List.length Nat.eqb negb check_fracs]. destruct (Rlt_dec (dbl_R (dbl_of_int (-1))) 0) as [L|L]; [|exfalso; apply L, minus_one].
  change (atom_name 1001303000) with (@Er bytes StdRange). reflexivity.
Qed.

Definition void_env : cenv := mkcenv (Files.mkfiles (fun _ => true) (fun _ => None) (fun _ => [])) [] (mkn (fun _ => Ok None) (fun _ => Er MarleyErr) (fun _ => Er MarleyErr)) (mkmt [] []) (fun _ _ => 1) false false.

Lemma big_huge : huge (b "3000000000").
Proof. exists (b "3000000000"). split; [split; [discriminate|]; repeat (constructor; [reflexivity|]); constructor|]. left. split; [left; reflexivity|]. vm_compute. discriminate. Qed.

(** That every refusal is a MARLEY error is false. A large number as neutrino type, and an
    element without a symbol, raise std::out_of_range; a reaction file that is empty leaves
    the type of the process undefined. *)
Theorem C53_failures_refuted : exists c j1 j2 j3,
  create_generator c j1 = Er StdRange /\ (exists spec s, held j1 "source" = Some spec /\ word spec "neutrino" = Some s /\ huge s) /\
  create_generator c j2 = Er StdRange /\ (exists atom, spoken_of c j2 atom /\ nameless atom) /\
  create_generator c j3 = Er Undefined /\ (exists n, held j3 "reactions" = Some (JArr [n]) /\ file_modes c n = Er Undefined).
Proof.
  exists void_env, big_neutrino, odd_nuclide, empty_file. split; [reflexivity|]. split; [eexists; eexists; split; [reflexivity|]; split; [reflexivity|exact big_huge]|].
  split; [apply odd_refused|]. split.
  { exists 1001303000%Z. split; [right; eexists; eexists; exists 1001303000%Z; split; [reflexivity|]; split; [reflexivity|]; split; [left; reflexivity|reflexivity]|].
    intros (s & Hs). change (particle_Z 1001303000) with 130%Z in Hs. unfold element_symbols in Hs. cbn [In] in Hs. repeat (destruct Hs as [Hs|Hs]; [discriminate Hs|]). exact Hs. }
  split; [reflexivity|]. eexists. split; reflexivity.
Qed.
Print Assumptions C53_failures_refuted.
