(** Property C53: a generator from a job configuration. *)
From Coq Require Import List Ascii String ZArith Reals Bool Lia Lra.
From Coq Require Import Floats.SpecFloat.
From Verif Require Import Base Dbl Json JsonProofs JsonRtProofs Pdg PdgThms Names React Levels MatEl MatElThms Mass NucReact NucSpec NucEventThms Kin KinSpec Rot RotSpec Sample SampleProofs XReal Grid GridThms Quad Source SourceThms Target TargetThms Gen GenThms
  Decay DecaySpec DeexSpec Run RunThms Config ConfigSpec ConfigProofs.
From Verif Require Files RotProofs.
Import ListNotations.
Open Scope string_scope.
Open Scope list_scope.
Open Scope R_scope.

(** ** Helpers *)

Lemma number_entry k j d x : number (b k) j d = Ok x <-> entry j k (Some d) = Some x.
Proof.
  unfold number, entry. rewrite has_value. destruct (held j k) as [v|] eqn:E; [rewrite (at_value _ _ _ E); cbn [bind]|split; congruence].
  destruct v; cbn [to_double numeric]; split; congruence.
Qed.
Lemma source_entry k j x : source_double (b k) j = Ok x <-> entry j k None = Some x.
Proof.
  unfold source_double, number, entry. rewrite has_value. destruct (held j k) as [v|] eqn:E; [rewrite (at_value _ _ _ E); cbn [bind]|split; congruence].
  destruct v; cbn [to_double numeric]; split; congruence.
Qed.
Lemma text_word k j d s : text (b k) j d = Ok s <-> word j k = Some s \/ (held j k = None /\ d = Ok s).
Proof.
  unfold text, word. rewrite has_value. destruct (held j k) as [v|] eqn:E; [rewrite (at_value _ _ _ E); cbn [bind]|].
  - destruct v; (split; [intros H|intros [H|[H _]]]); try congruence. left. congruence.
  - split; [auto|intros [H|[_ H]]; [discriminate|exact H]].
Qed.
Lemma numbers_numeric : forall l xs, numbers l = Ok xs <-> Forall2 (fun v x => numeric v = Some x) l xs.
Proof.
  induction l as [|v l IH]; intros xs; cbn [numbers].
  - split; [intros H; injection H as <-; constructor|intros H; inversion H; reflexivity].
  - assert (N : forall x, to_double v = (x, true) <-> (to_double v = (x, true) /\ numeric v = Some (dbl_R x))) by (intros x; destruct v; cbn [to_double numeric]; split; try tauto; intros H; try (injection H as <-); try discriminate; split; reflexivity).
    destruct (to_double v) as [x ok] eqn:E. destruct ok.
    + assert (NV : numeric v = Some (dbl_R x)) by (apply N; reflexivity). split.
      * intros H. bind_in H. injection H as <-. constructor; [exact NV|]. apply IH. first [assumption|reflexivity].
      * intros H. inversion H as [|? y ? ys H1 H2]; subst. apply IH in H2. rewrite H2. cbn [bind]. congruence.
    + split; [discriminate|]. intros H. inversion H as [|? y ? ys H1 H2]; subst. destruct v; cbn [to_double numeric] in *; discriminate.
Qed.
Lemma vector_ok k j xs : get_vector (b k) j = Ok xs <-> vector j k xs.
Proof.
  unfold get_vector, vector. rewrite has_value. destruct (held j k) as [v|] eqn:E; [rewrite (at_value _ _ _ E); cbn [bind]|split; [discriminate|intros (l & H & _); discriminate]].
  destruct v; try (split; [discriminate|intros (l' & H & _); discriminate]). rewrite numbers_numeric. split; [intros H; exists l; auto|]. intros (l' & H & H'). injection H as <-. exact H'.
Qed.

Lemma one_of_spec s l : one_of s l = true <-> exists n, In n l /\ s = b n.
Proof.
  unfold one_of. rewrite existsb_exists. split; intros (n & H1 & H2); exists n; (split; [exact H1|]); apply bytes_eqb_eq; assumption.
Qed.

Lemma positive_ok x : check_positive x = Ok tt <-> 0 < x.
Proof. unfold check_positive. destruct (Rle_dec x 0); split; intros; try discriminate; try reflexivity; lra. Qed.
Lemma nonneg_ok x : check_nonnegative x = Ok tt <-> 0 <= x.
Proof. unfold check_nonnegative. destruct (Rlt_dec x 0); split; intros; try discriminate; try reflexivity; lra. Qed.

(** ** Interpolation rules *)

Lemma all_digits_decimal s : all_digits s = true <-> decimal s.
Proof.
  unfold all_digits, decimal. destruct s as [|c s]; [split; [discriminate|intros [H _]; contradiction]|]. rewrite forallb_forall, Forall_forall. split; [intros H; split; [discriminate|exact H]|intros [_ H]; exact H].
Qed.

(** A rule is accepted exactly if it is one of the names or a decimal code that fits in an
    int; codes other than 1 to 5 are taken as constant interpolation. Everything else is
    an error: of the library for an unknown name, of std::stoi for a number out of range. *)
Theorem C53_rules s :
  (forall m, interpolation_method s = Ok m <-> names_rule s m) /\
  (forall e, interpolation_method s = Er e -> (~ decimal s /\ e = MarleyErr) \/ (decimal s /\ (2 ^ 31 <= digits_val s)%Z /\ e = StdRange)).
Proof.
  unfold interpolation_method, names_rule. destruct (all_digits s) eqn:D.
  - apply all_digits_decimal in D.
    assert (ST : stoi s = stoi_digits s).
    { destruct D as [N F]. destruct s as [|c s]; [contradiction|]. pose proof (Forall_inv F) as HC. cbn [stoi]. cbv beta in HC.
      destruct (ceq c "-") eqn:E1; [apply ceq_true in E1; subst c; discriminate HC|]. destruct (ceq c "+") eqn:E2; [apply ceq_true in E2; subst c; discriminate HC|]. reflexivity. }
    assert (NN : forall n, In n (map fst rule_names) -> s <> b n).
    { intros n HN E. destruct D as [_ F]. rewrite E in F. cbn [rule_names map fst In] in HN. repeat (destruct HN as [<-|HN]; [apply Forall_inv in F; discriminate F|]). exact HN. }
    rewrite ST. unfold stoi_digits. cbv zeta. destruct (Z.leb_spec (digits_val s) (2 ^ 31 - 1)) as [L|L]; cbn [bind].
    + split; [|discriminate]. intros m. set (n := digits_val s) in *. split.
      * intros H. injection H as <-. right. split; [exact D|]. split; [lia|]. cbn [rule_codes In].
        destruct (Z.eqb_spec n 1) as [->|N1]; [left; auto|]. destruct (Z.eqb_spec n 2) as [->|N2]; [left; auto|]. destruct (Z.eqb_spec n 3) as [->|N3]; [left; auto|].
        destruct (Z.eqb_spec n 4) as [->|N4]; [left; auto 6|]. destruct (Z.eqb_spec n 5) as [->|N5]; [left; auto 7|]. right. split; [lia|reflexivity].
      * intros [(nm & HN & E)|(_ & _ & [HC|[HC ->]])].
        -- exfalso. apply (NN nm); [apply (in_map fst) in HN; exact HN|exact E].
        -- f_equal. cbn [rule_codes In] in HC. repeat (destruct HC as [HC|HC]; [injection HC as <- <-; reflexivity|]). destruct HC.
        -- f_equal. destruct (Z.eqb_spec n 1); [lia|]. destruct (Z.eqb_spec n 2); [lia|]. destruct (Z.eqb_spec n 3); [lia|]. destruct (Z.eqb_spec n 4); [lia|]. destruct (Z.eqb_spec n 5); [lia|]. reflexivity.
    + split; [intros m; split; [discriminate|]|].
      * intros [(nm & HN & E)|(_ & B & _)]; [|lia]. exfalso. apply (NN nm); [apply (in_map fst) in HN; exact HN|exact E].
      * intros e H. injection H as <-. right. split; [exact D|]. split; [lia|reflexivity].
  - assert (ND : ~ decimal s) by (rewrite <- all_digits_decimal; congruence).
    assert (BE : forall n, bytes_eqb s (b n) = true <-> s = b n) by (intros; apply bytes_eqb_eq).
    destruct (bytes_eqb s (b "const")) eqn:E1; [apply BE in E1|]; [|destruct (bytes_eqb s (b "constant")) eqn:E2; [apply BE in E2|]]; cbn [orb].
    3:destruct (bytes_eqb s (b "lin")) eqn:E3; [apply BE in E3|]; [|destruct (bytes_eqb s (b "linlin")) eqn:E4; [apply BE in E4|]]; cbn [orb].
    5:destruct (bytes_eqb s (b "log")) eqn:E5; [apply BE in E5|]; [|destruct (bytes_eqb s (b "loglog")) eqn:E6; [apply BE in E6|]]; cbn [orb].
    7:destruct (bytes_eqb s (b "linlog")) eqn:E7; [apply BE in E7|]; [|destruct (bytes_eqb s (b "loglin")) eqn:E8; [apply BE in E8|]].
    9:{ split; [intros m; split; [discriminate|]|intros e H; injection H as <-; left; auto]. intros [(n & HN & E)|[D' _]]; [|contradiction]. exfalso. cbn [rule_names In] in HN.
        repeat (destruct HN as [HN|HN]; [injection HN as <- <-; apply BE in E; congruence|]). exact HN. }
    all: subst s; (split; [|discriminate]); intros m; (split; [intros H; injection H as <-; left; eexists; split; [|reflexivity]; cbn [rule_names In]; auto 10|]);
      (intros [(n & HN & E)|[D' _]]; [|contradiction]); cbn [rule_names In] in HN;
      repeat (destruct HN as [HN|HN]; [injection HN as <- <-; solve [reflexivity | discriminate E]|]); destruct HN.
Qed.
Print Assumptions C53_rules.

(** ** Neutrino types *)

(** A neutrino type is accepted exactly if it is one of the six names or the code of one of
    the six neutrinos. *)
Theorem C53_neutrinos s pdg : neutrino_pdg s = Ok pdg <-> names_neutrino s pdg.
Proof.
  unfold neutrino_pdg, names_neutrino. destruct (is_integer s) eqn:I.
  - assert (NN : forall n, In n (map fst neutrino_names) -> s <> b n).
    { intros n HN E. rewrite E in I. cbn [neutrino_names map fst In] in HN. repeat (destruct HN as [<-|HN]; [discriminate I|]). exact HN. }
    assert (F : exists ds, decimal ds /\ (s = ds \/ s = "+"%char :: ds \/ s = "-"%char :: ds) /\
       stoi s = (if ceq (hd "0"%char s) "-" then (if Z.leb (digits_val ds) (2 ^ 31) then Ok (- digits_val ds)%Z else Er StdRange) else stoi_digits ds)).
    { destruct s as [|c s]; [discriminate|]. cbn [is_integer hd stoi] in *. destruct (ceq c "-") eqn:E1; cbn [orb] in I.
      - apply all_digits_decimal in I. exists s. split; [exact I|]. apply ceq_true in E1. subst c. auto.
      - destruct (ceq c "+") eqn:E2; apply all_digits_decimal in I.
        + exists s. apply ceq_true in E2. subst c. auto.
        + exists (c :: s). auto. }
    destruct F as (ds & D & S & ->).
    assert (DN : forall c r, decimal (c :: r) -> c <> "+"%char /\ c <> "-"%char) by (intros c r [_ Fc]; apply Forall_inv in Fc; split; intros ->; discriminate Fc).
    assert (EQ : forall n, (do n0 <- Ok n; if pdg_is_allowed n0 then Ok n0 else Er MarleyErr) = Ok pdg <-> neutrino pdg /\ pdg = n).
    { intros n. cbn [bind]. destruct (pdg_is_allowed n) eqn:P.
      - apply pid_ok in P. split; [intros H; injection H as <-; auto|intros [_ ->]; reflexivity].
      - split; [discriminate|]. intros [H ->]. apply pid_ok in H. congruence. }
    destruct S as [->|[->| ->]].
    + replace (ceq (hd "0"%char ds) "-") with false.
      2:{ destruct ds as [|c r]; [reflexivity|]. cbn [hd]. symmetry. apply ceq_neq. apply (DN c r D). }
      unfold stoi_digits. cbv zeta. destruct (Z.leb_spec (digits_val ds) (2 ^ 31 - 1)) as [L|L].
      * rewrite EQ. split; intros [HN H]; (split; [exact HN|]).
        -- right. exists ds. auto.
        -- destruct H as [(n & H1 & H2)|(ds' & D' & [[-> H]|[[H1 _]|[H1 _]]])]; [exfalso; apply (NN n); [apply (in_map fst) in H1; exact H1|exact H2]|exact H|exfalso; subst ds; destruct (DN _ _ D); congruence|exfalso; subst ds; destruct (DN _ _ D); congruence].
      * split; [discriminate|]. intros [HN H]. exfalso.
        destruct H as [(n & H1 & H2)|(ds' & D' & [[-> H]|[[H1 _]|[H1 _]]])]; [apply (NN n); [apply (in_map fst) in H1; exact H1|exact H2]| |subst ds; destruct (DN _ _ D); congruence|subst ds; destruct (DN _ _ D); congruence].
        unfold neutrino in HN. lia.
    + cbn [hd]. replace (ceq "+" "-") with false by reflexivity. unfold stoi_digits. cbv zeta.
      assert (UQ : forall ds', decimal ds' -> "+"%char :: ds <> ds') by (intros ds' D' <-; destruct (DN _ _ D'); congruence).
      destruct (Z.leb_spec (digits_val ds) (2 ^ 31 - 1)) as [L|L].
      * rewrite EQ. split; intros [HN H]; (split; [exact HN|]).
        -- right. exists ds. auto.
        -- destruct H as [(n & H1 & H2)|(ds' & D' & [[H1 H]|[[H1 H]|[H1 _]]])]; [exfalso; apply (NN n); [apply (in_map fst) in H1; exact H1|exact H2]|exfalso; exact (UQ _ D' H1)|congruence|discriminate].
      * split; [discriminate|]. intros [HN H]. exfalso.
        destruct H as [(n & H1 & H2)|(ds' & D' & [[H1 H]|[[H1 H]|[H1 _]]])]; [apply (NN n); [apply (in_map fst) in H1; exact H1|exact H2]|exact (UQ _ D' H1)| |discriminate].
        injection H1 as <-. unfold neutrino in HN. lia.
    + cbn [hd]. replace (ceq "-" "-") with true by reflexivity.
      assert (UQ : forall ds', decimal ds' -> "-"%char :: ds <> ds') by (intros ds' D' <-; destruct (DN _ _ D'); congruence).
      destruct (Z.leb_spec (digits_val ds) (2 ^ 31)) as [L|L].
      * rewrite EQ. split; intros [HN H]; (split; [exact HN|]).
        -- right. exists ds. auto 6.
        -- destruct H as [(n & H1 & H2)|(ds' & D' & [[H1 H]|[[H1 _]|[H1 H]]])]; [exfalso; apply (NN n); [apply (in_map fst) in H1; exact H1|exact H2]|exfalso; exact (UQ _ D' H1)|discriminate|congruence].
      * split; [discriminate|]. intros [HN H]. exfalso.
        destruct H as [(n & H1 & H2)|(ds' & D' & [[H1 H]|[[H1 _]|[H1 H]]])]; [apply (NN n); [apply (in_map fst) in H1; exact H1|exact H2]|exact (UQ _ D' H1)|discriminate|].
        injection H1 as <-. unfold neutrino in HN. lia.
  - assert (NI : forall ds, decimal ds -> s <> ds /\ s <> "+"%char :: ds /\ s <> "-"%char :: ds).
    { intros ds D. pose proof D as D'. apply all_digits_decimal in D'. repeat split; intros ->; cbn [is_integer] in I.
      - destruct ds as [|c r]; [discriminate D'|]. destruct (ceq c "-") eqn:E1; cbn [orb is_integer] in I; [apply ceq_true in E1; subst c; destruct D as [_ D]; apply Forall_inv in D; discriminate D|].
        rewrite E1 in I. destruct (ceq c "+") eqn:E2; cbn [orb] in I; [apply ceq_true in E2; subst c; destruct D as [_ D]; apply Forall_inv in D; discriminate D|]. congruence.
      - change (ceq "+" "-" || ceq "+" "+")%bool with true in I. cbv iota in I. congruence.
      - change (ceq "-" "-" || ceq "-" "+")%bool with true in I. cbv iota in I. congruence. }
    unfold neutrino_of_string. assert (BE : forall n, bytes_eqb s (b n) = true <-> s = b n) by (intros; apply bytes_eqb_eq).
    assert (H0 : neutrino pdg /\ ((exists n, In (n, pdg) neutrino_names /\ s = b n) \/ (exists ds, decimal ds /\ (s = ds /\ pdg = digits_val ds \/ s = "+"%char :: ds /\ pdg = digits_val ds \/ s = "-"%char :: ds /\ pdg = - digits_val ds)%Z)) <->
      exists n, In (n, pdg) neutrino_names /\ s = b n).
    { split.
      - intros [_ [H|(ds & D & H)]]; [exact H|]. exfalso. destruct (NI ds D) as (A1 & A2 & A3). intuition.
      - intros (n & H1 & H2). split; [|left; exists n; auto]. unfold neutrino. cbn [neutrino_names In] in H1. repeat (destruct H1 as [H1|H1]; [injection H1 as _ <-; tauto|]). destruct H1. }
    rewrite H0. clear H0.
    repeat (match goal with |- context [bytes_eqb s (b ?n)] => let E := fresh "E" in destruct (bytes_eqb s (b n)) eqn:E; [apply BE in E; subst s; split; [intros H; injection H as <-; eexists; split; [|reflexivity]; cbn [neutrino_names In]; auto 10|
      intros (n' & H1 & H2); cbn [neutrino_names In] in H1; repeat (destruct H1 as [H1|H1]; [injection H1 as <- <-; solve [reflexivity | discriminate H2]|]); destruct H1]|] end).
    split; [discriminate|]. intros (n & H1 & H2). exfalso. cbn [neutrino_names In] in H1. repeat (destruct H1 as [H1|H1]; [injection H1 as <- <-; apply BE in H2; congruence|]). exact H1.
Qed.
Print Assumptions C53_neutrinos.

(** ** Sources *)

Lemma bins_ok : forall edges ws ds', bin_densities edges (ws ++ [0]) = Ok ds' -> List.length edges = S (List.length ws) -> exists ds, ds' = ds ++ [0] /\ densities edges ws ds.
Proof.
  induction edges as [|e edges IH]; intros ws ds' H L; [discriminate|]. destruct edges as [|e' edges].
  - destruct ws; [|discriminate]. cbn [app bin_densities] in H. injection H as <-. exists []. split; [reflexivity|exact I].
  - destruct ws as [|w ws]; [discriminate|]. cbn [app] in H. cbn [bin_densities] in H. destruct (Rle_dec (e' - e) 0) as [|N]; [discriminate|]. bind_in H. injection H as <-.
    destruct (IH ws a) as (ds & -> & D); [assumption|cbn [List.length] in *; lia|]. exists (w / (e' - e) :: ds). split; [reflexivity|]. cbn [densities]. split; [lra|]. split; [reflexivity|exact D].
Qed.
Lemma bins_complete : forall edges ws ds, densities edges ws ds -> bin_densities edges (ws ++ [0]) = Ok (ds ++ [0]) /\ List.length edges = S (List.length ws) /\ List.length ds = List.length ws.
Proof.
  induction edges as [|e edges IH]; intros ws ds D; [destruct D|]. destruct edges as [|e' edges].
  - destruct ws as [|? ?], ds as [|? ?]; try destruct D. auto.
  - destruct ws as [|w ws]; [destruct D|]. destruct ds as [|d ds]; [destruct D|]. cbn [densities] in D. destruct D as (L & -> & D). destruct (IH ws ds D) as (E & L1 & L2).
    change (bin_densities (e :: e' :: edges) ((w :: ws) ++ [0])) with (if Rle_dec (e' - e) 0 then Er MarleyErr else do ds <- bin_densities (e' :: edges) (ws ++ [0]); Ok (w / (e' - e) :: ds)).
    destruct (Rle_dec (e' - e) 0); [lra|]. rewrite E. cbn [bind app]. cbn [List.length] in *. split; [reflexivity|]. split; lia.
Qed.

Lemma named_type spec type l : word spec "type" = Some type -> (one_of type l = true <-> named spec l).
Proof. intros W. rewrite one_of_spec. unfold named. rewrite W. split; intros (n & H1 & H2); exists n; (split; [exact H1|]); congruence. Qed.

(** A specification gives a source exactly if it describes one: the type is one of those
    known, the numbers it needs are there and in range (0 is the default of "eta", 4.5 that
    of "beta" and "linlin" that of "rule"), and the source is the one described. *)
Theorem C53_sources spec type pdg s : word spec "type" = Some type -> neutrino pdg -> (make_source type pdg spec = Ok s <-> described spec pdg s).
Proof.
  intros W HN. pose proof (proj2 (check_pid_ok pdg) HN) as CP.
  assert (OTH : forall l, one_of type l = true <-> named spec l) by (intros; apply named_type; exact W).
  assert (DIS : forall l l', one_of type l = true -> named spec l' -> existsb (fun n => one_of (b n) l') l = true).
  { intros l l' H1 (n' & H2 & H3). apply one_of_spec in H1. destruct H1 as (n & H1 & H4). apply existsb_exists. exists n. split; [exact H1|]. apply one_of_spec. exists n'. split; [exact H2|]. congruence. }
  assert (DIS' : forall l l', one_of type l = false -> named spec l' -> (forall n, In n l' -> In n l) -> False).
  { intros l l' H1 (n & H2 & H3) HI. assert (one_of type l = true); [|congruence]. apply one_of_spec. exists n. split; [exact (HI n H2)|congruence]. }
  unfold make_source. destruct (one_of type ["mono"; "monoenergetic"]) eqn:T1.
  { split.
    - intros H. bind_in H. apply source_entry in E. bind_in H. destruct a0. apply positive_ok in E0. unfold make_mono in H. rewrite CP in H. cbn [bind] in H. injection H as <-.
      apply (is_mono _ _ a); [apply OTH; exact T1|exact E|exact E0].
    - intros D. destruct D as [E N1 E1 E2|N1|lo hi T eta s N1|lo hi mean beta s N1|es ws hi ds s N1|es ps m s N1]; try (pose proof (DIS _ _ T1 N1) as X; discriminate X).
      apply source_entry in E1. rewrite E1. cbn [bind]. rewrite (proj2 (positive_ok E) E2). cbn [bind]. unfold make_mono. rewrite CP. reflexivity. }
  destruct (one_of type ["dar"; "decay-at-rest"]) eqn:T2.
  { unfold make_dar. rewrite CP. cbn [bind].
    assert (DP : (negb (Z.abs pdg =? 12)%Z && negb (Z.abs pdg =? 14)%Z)%bool = false <-> (pdg <> 16 /\ pdg <> -16)%Z).
    { unfold neutrino in HN. repeat (destruct HN as [->|HN]; [cbn; split; intros; [split|]; congruence || (exfalso; tauto)|]). subst pdg. cbn. split; intros; [discriminate|exfalso; tauto]. }
    split.
    - intros H. destruct (negb _ && negb _)%bool eqn:B; [discriminate|]. injection H as <-. pose proof (proj1 DP eq_refl) as B'. apply is_dar; [apply OTH; exact T2|apply B'|apply B'].
    - intros D. destruct D as [E N1 E1 E2|N1 A1 A2|lo hi T eta s N1|lo hi mean beta s N1|es ws hi ds s N1|es ps m s N1]; try (pose proof (DIS _ _ T2 N1) as X; discriminate X).
      rewrite (proj2 DP (conj A1 A2)). reflexivity. }
  destruct (one_of type ["fd"; "fermi-dirac"; "fermi_dirac"]) eqn:T3.
  { split.
    - intros H. bind_in H. apply source_entry in E. rename a into lo. bind_in H. apply source_entry in E0. rename a into hi. bind_in H. apply source_entry in E1. rename a into T. bind_in H. apply number_entry in E2. rename a into eta.
      bind_in H. destruct a. apply nonneg_ok in E3. bind_in H. destruct a. apply positive_ok in E4. destruct (Rle_dec hi lo); [discriminate|].
      apply (is_fermi _ _ lo hi T eta); try assumption; [apply OTH; exact T3|lra].
    - intros D. destruct D as [E N1 E1 E2|N1 A1 A2|lo hi T eta s N1 A1 A2 A3 A4 A5 A6 A7|lo hi mean beta s N1|es ws hi ds s N1|es ps m s N1]; try (pose proof (DIS _ _ T3 N1) as X; discriminate X).
      apply source_entry in A1, A2, A3. apply number_entry in A4. rewrite A1. cbn [bind]. rewrite A2. cbn [bind]. rewrite A3. cbn [bind]. rewrite A4. cbn [bind].
      rewrite (proj2 (nonneg_ok lo)) by lra. cbn [bind]. rewrite (proj2 (positive_ok T)) by lra. cbn [bind]. destruct (Rle_dec hi lo); [lra|]. exact A7. }
  destruct (one_of type ["bf"; "beta"; "beta-fit"]) eqn:T4.
  { split.
    - intros H. bind_in H. apply source_entry in E. rename a into lo. bind_in H. apply source_entry in E0. rename a into hi. bind_in H. apply source_entry in E1. rename a into mean. bind_in H. apply number_entry in E2. rename a into beta.
      bind_in H. destruct a. apply nonneg_ok in E3. bind_in H. destruct a. apply positive_ok in E4. destruct (Rle_dec hi lo); [discriminate|].
      apply (is_beta _ _ lo hi mean beta); try assumption; [apply OTH; exact T4|lra|]. unfold make_beta in H. rewrite CP in H. cbn [bind] in H. destruct (Rlt_dec beta 1); [discriminate|lra].
    - intros D. destruct D as [E N1 E1 E2|N1 A1 A2|lo hi T eta s N1 A1 A2 A3 A4 A5 A6 A7|lo hi mean beta s N1 A1 A2 A3 A4 A5 A6 A7 A8|es ws hi ds s N1|es ps m s N1]; try (pose proof (DIS _ _ T4 N1) as X; discriminate X).
      apply source_entry in A1, A2, A3. apply number_entry in A4. rewrite A1. cbn [bind]. rewrite A2. cbn [bind]. rewrite A3. cbn [bind]. rewrite A4. cbn [bind].
      rewrite (proj2 (nonneg_ok lo)) by lra. cbn [bind]. rewrite (proj2 (positive_ok mean)) by lra. cbn [bind]. destruct (Rle_dec hi lo); [lra|]. exact A8. }
  destruct (one_of type ["hist"; "histogram"]) eqn:T5.
  { split.
    - intros H. bind_in H. apply vector_ok in E. rename a into es. bind_in H. apply vector_ok in E0. rename a into ws. destruct (Nat.eqb_spec (List.length es) (List.length ws)) as [L|]; [|discriminate]. cbn [negb] in H.
      bind_in H. apply source_entry in E1. rename a into hi. bind_in H. destruct a. apply positive_ok in E2. bind_in H. rename a into ds'.
      destruct (bins_ok _ _ _ E3) as (ds & -> & D); [rewrite app_length; cbn [List.length]; lia|]. apply (is_hist _ _ es ws hi ds); try assumption. apply OTH. exact T5.
    - intros D. destruct D as [E N1 E1 E2|N1 A1 A2|lo hi T eta s N1 A1 A2 A3 A4 A5 A6 A7|lo hi mean beta s N1 A1 A2 A3 A4 A5 A6 A7 A8|es ws hi ds s N1 A1 A2 A3 A4 A5 A6|es ps m s N1]; try (pose proof (DIS _ _ T5 N1) as X; discriminate X).
      apply vector_ok in A1, A2. apply source_entry in A3. rewrite A1. cbn [bind]. rewrite A2. cbn [bind]. destruct (bins_complete _ _ _ A5) as (B1 & B2 & _). rewrite app_length in B2. cbn [List.length] in B2.
      replace (Nat.eqb (List.length es) (List.length ws)) with true by (symmetry; apply Nat.eqb_eq; lia). cbn [negb]. rewrite A3. cbn [bind]. rewrite (proj2 (positive_ok hi) A4). cbn [bind]. rewrite B1. cbn [bind]. exact A6. }
  destruct (one_of type ["grid"]) eqn:T6.
  { split.
    - intros H. bind_in H. apply vector_ok in E. rename a into es. bind_in H. apply vector_ok in E0. rename a into ps. bind_in H. rename a into rule. bind_in H. rename a into m.
      apply (is_grid _ _ es ps m); try assumption; [apply OTH; exact T6|]. apply text_word in E1. apply (proj1 (C53_rules rule)) in E2. destruct E1 as [E1|[E1 E1']]; [left; exists rule; auto|]. right. split; [exact E1|].
      injection E1' as E1'. rewrite <- E1' in E2. pose proof (proj2 (proj1 (C53_rules _) m) E2) as X. change (Ok ILinLin = Ok m) in X. congruence.
    - intros D. destruct D as [E N1 E1 E2|N1 A1 A2|lo hi T eta s N1 A1 A2 A3 A4 A5 A6 A7|lo hi mean beta s N1 A1 A2 A3 A4 A5 A6 A7 A8|es ws hi ds s N1 A1 A2 A3 A4 A5 A6|es ps m s N1 A1 A2 A3 A4]; try (pose proof (DIS _ _ T6 N1) as X; discriminate X).
      apply vector_ok in A1, A2. rewrite A1. cbn [bind]. rewrite A2. cbn [bind].
      destruct A3 as [(rule & R1 & R2)|[R1 ->]].
      + rewrite (proj2 (text_word "rule" spec (Ok (b "linlin")) rule) (or_introl R1)). cbn [bind]. apply (proj1 (C53_rules rule)) in R2. rewrite R2. cbn [bind]. exact A4.
      + rewrite (proj2 (text_word "rule" spec (Ok (b "linlin")) (b "linlin")) (or_intror (conj R1 eq_refl))). cbn [bind]. change (interpolation_method (b "linlin")) with (Ok ILinLin). cbn [bind]. exact A4. }
  split; [discriminate|]. intros D. exfalso.
  destruct D as [E N1 E1 E2|N1 A1 A2|lo hi T eta s N1|lo hi mean beta s N1|es ws hi ds s N1|es ps m s N1]; [exact (DIS' _ _ T1 N1 (fun n h => h))|exact (DIS' _ _ T2 N1 (fun n h => h))|exact (DIS' _ _ T3 N1 (fun n h => h))|exact (DIS' _ _ T4 N1 (fun n h => h))|exact (DIS' _ _ T5 N1 (fun n h => h))|exact (DIS' _ _ T6 N1 (fun n h => h))].
Qed.
Print Assumptions C53_sources.

Lemma densities_at : forall edges ws ds, densities edges ws ds -> forall i e e' w, nth_error edges i = Some e -> nth_error edges (S i) = Some e' -> nth_error ws i = Some w -> e < e' /\ nth_error ds i = Some (w / (e' - e)).
Proof.
  induction edges as [|x edges IH]; intros ws ds D i e e' w H1 H2 H3; [destruct D|]. destruct edges as [|x' edges]; [destruct i; discriminate|].
  destruct ws as [|y ws]; [destruct D|]. destruct ds as [|d ds]; [destruct D|]. cbn [densities] in D. destruct D as (L & -> & D). destruct i as [|i].
  - cbn [nth_error] in *. injection H1 as <-. injection H2 as <-. injection H3 as <-. auto.
  - exact (IH _ _ D i e e' w H1 H2 H3).
Qed.
Lemma densities_sorted : forall edges ws ds, densities edges ws ds -> forall i j e e', (i < j)%nat -> nth_error edges i = Some e -> nth_error edges j = Some e' -> e < e'.
Proof.
  induction edges as [|x edges IH]; intros ws ds D i j e e' L H1 H2; [destruct D|]. destruct edges as [|x' edges]; [destruct j as [|[|j]]; [lia|discriminate|discriminate]|].
  destruct ws as [|y ws]; [destruct D|]. destruct ds as [|d ds]; [destruct D|]. cbn [densities] in D. destruct D as (L0 & -> & D). destruct j as [|j]; [lia|]. destruct i as [|i].
  - cbn [nth_error] in H1. injection H1 as <-. destruct j as [|j]; [cbn [nth_error] in H2; injection H2 as <-; exact L0|].
    pose proof (IH _ _ D 0%nat (S j) x' e' ltac:(lia) eq_refl H2). lra.
  - exact (IH _ _ D i j e e' ltac:(lia) H1 H2).
Qed.
Lemma nth_combine {A B} : forall (l : list A) (m : list B) i x y, nth_error l i = Some x -> nth_error m i = Some y -> nth_error (combine l m) i = Some (x, y).
Proof. induction l as [|a l IH]; intros [|c m] [|i] x y H1 H2; try discriminate; cbn [nth_error combine] in *; [congruence|]. apply IH; assumption. Qed.
Lemma nth_combine_inv {A B} : forall (l : list A) (m : list B) i p, nth_error (combine l m) i = Some p -> nth_error l i = Some (fst p) /\ nth_error m i = Some (snd p).
Proof. induction l as [|a l IH]; intros [|c m] [|i] p H; try discriminate; cbn [nth_error combine] in *; [injection H as <-; auto|]. apply IH; assumption. Qed.

Lemma densities_increasing edges ws ds ys : densities edges ws ds -> increasing (combine edges ys).
Proof. intros D i j p q L H1 H2. apply nth_combine_inv in H1, H2. exact (densities_sorted _ _ _ D i j _ _ L (proj1 H1) (proj1 H2)). Qed.

Lemma vector_unique j k xs ys : vector j k xs -> vector j k ys -> xs = ys.
Proof.
  intros (l & H1 & H2) (l' & H3 & H4). assert (l' = l) by congruence. subst l'. clear H1 H3. revert ys H4. induction H2 as [|v x l xs H _ IH]; intros ys H4; inversion H4; subst; [reflexivity|]. f_equal; [congruence|auto].
Qed.

Lemma hist_value pdg s edges ws ds i e e' w E : densities edges ws ds -> make_grid_source_xy pdg edges (ds ++ [0]) IConstant = Ok s ->
  (forall x, In x edges -> x = 0 \/ tiny < x) ->
  nth_error edges i = Some e -> nth_error edges (S i) = Some e' -> nth_error ws i = Some w -> e < E <= e' -> tiny < E ->
  pdf s E = Ok (Fin (w / (e' - e))).
Proof.
  intros D H HT H1 H2 H3 HE Ht. destruct (densities_at _ _ _ D i e e' w H1 H2 H3) as [L Hd]. destruct (C40_vectors _ _ _ _ _ H) as [LEN H'].
  apply (proj1 (C40_accepts _ _)) in H'. cbn [g_im g_em g_pts] in H'. destruct H' as (-> & _ & _ & HF & _). cbn [pdf].
  assert (INC : increasing (combine edges (ds ++ [0]))) by (eapply densities_increasing; exact D).
  assert (HL : exists d', nth_error (ds ++ [0]) (S i) = Some d').
  { destruct (nth_error (ds ++ [0]) (S i)) eqn:X; [eexists; reflexivity|]. apply nth_error_None in X. assert (nth_error edges (S i) <> None) by congruence. apply nth_error_Some in H0. lia. }
  destruct HL as [d' Hd'].
  assert (Hdi : nth_error (ds ++ [0]) i = Some (w / (e' - e))) by (rewrite nth_error_app1; [exact Hd|]; apply nth_error_Some; congruence).
  pose proof (map_nth_error lift_zero _ _ (nth_combine _ _ _ _ _ H1 Hdi)) as P. pose proof (map_nth_error lift_zero _ _ (nth_combine _ _ _ _ _ H2 Hd')) as Q.
  rewrite (C38_constant (mkgrid IConstant EZero (map lift_zero (combine edges (ds ++ [0])))) i _ _ E (lifted_increasing _ HF INC (fun p Hp => HT _ (proj1 (combine_in_l _ _ _ Hp)))) eq_refl P Q); [reflexivity|].
  unfold lift_zero. cbn [fst snd]. pose proof tiny_pos.
  assert (e' <> 0) by (rewrite Forall_forall in HF; pose proof (HF _ (nth_error_In _ _ (nth_combine _ _ _ _ _ H1 Hdi))) as [X _]; cbn [fst] in X; lra).
  destruct (Req_EM_T e 0); destruct (Req_EM_T e' 0); try contradiction; lra.
Qed.

(** The density of a histogram source in a bin is the content of the bin divided by its
    width. (A bin does not include its left end. A left end of zero is replaced by the
    smallest positive double.) *)
Theorem C53_histogram spec pdg s es ws hi i e e' w E : named spec ["hist"; "histogram"] -> described spec pdg s ->
  vector spec "E_bin_lefts" es -> vector spec "weights" ws -> entry spec "Emax" None = Some hi ->
  (forall x, In x (es ++ [hi]) -> x = 0 \/ tiny < x) ->
  nth_error (es ++ [hi]) i = Some e -> nth_error (es ++ [hi]) (S i) = Some e' -> nth_error ws i = Some w -> e < E <= e' -> tiny < E ->
  pdf s E = Ok (Fin (w / (e' - e))).
Proof.
  intros (n0 & I0 & W0) D V1 V2 V3 HT H1 H2 H3 HE Ht.
  assert (X : forall l, named spec l -> existsb (fun n => one_of (b n) l) ["hist"; "histogram"] = true).
  { intros l (n & I1 & W1). apply existsb_exists. exists n0. split; [exact I0|]. apply one_of_spec. exists n. split; [exact I1|congruence]. }
  destruct D as [? N1|N1|? ? ? ? ? N1|? ? ? ? ? N1|es' ws' hi' ds s N1 A1 A2 A3 A4 A5 A6|? ? ? ? N1]; try (specialize (X _ N1); discriminate X).
  rewrite (vector_unique _ _ _ _ A1 V1), (vector_unique _ _ _ _ A2 V2) in *. assert (hi' = hi) by congruence. subst hi'.
  exact (hist_value _ _ _ _ _ i e e' w E A5 A6 HT H1 H2 H3 HE Ht).
Qed.
Print Assumptions C53_histogram.

(** ** The configured generator: direction, source, flags *)

Lemma direction_ok d o o' : set_direction d o = Ok o' -> d <> vnull /\ o' = mkrot (unit_of d) (unit_of d) (o_mat o) (o_random o).
Proof.
  unfold set_direction. destruct (vec_eq_dec d vnull) as [->|N]; [rewrite RotProofs.normalize_null; discriminate|]. rewrite RotProofs.normalize_ok by exact N. cbn [bind]. intros H. injection H as <-. auto.
Qed.

(** The direction: +z if none is given, any direction with random draws for "isotropic",
    otherwise the normalised vector with missing components taken from (0, 0, 1). Anything
    else is refused. *)
Theorem C53_direction c j k : create_generator c j = Ok k -> let o := z_rot (k_gen k) in
  match held j "direction" with
  | None => o_dir o = zaxis /\ o_random o = false
  | Some (JStr s) => escape s = b "isotropic" /\ o_random o = true
  | Some (JObj l) => o_random o = false /\ exists x y z,
      entry (JObj l) "x" (Some 0) = Some x /\ entry (JObj l) "y" (Some 0) = Some y /\ entry (JObj l) "z" (Some 1) = Some z /\
      mkv x y z <> vnull /\ o_dir o = unit_of (mkv x y z)
  | _ => False
  end.
Proof.
  intros H. destruct (create_form _ _ _ H) as (o & src & w & def & ms & t & z1 & z2 & _ & _ & _ & HD & E1 & _ & _ & _ & _ & HK).
  assert (EO : z_rot (k_gen k) = o) by (destruct HK as [[_ ->]|(_ & m & _ & _ & _ & g & _ & ->)]; reflexivity). cbv zeta. rewrite EO. clear HK.
  subst z1. unfold prepare_direction in HD. key "direction" j; [|injection HD as <-; split; reflexivity].
  destruct v; try discriminate HD.
  - destruct (bytes_eqb _ _) eqn:B; [|discriminate HD]. apply bytes_eqb_eq in B. injection HD as <-. split; [exact B|reflexivity].
  - change (vx (o_dir (z_rot start))) with 0 in HD. change (vy (o_dir (z_rot start))) with 0 in HD. change (vz (o_dir (z_rot start))) with 1 in HD.
    bind_in HD. rename a into x. rename E into EX. bind_in HD. rename a into y. rename E into EY. bind_in HD. rename a into z. rename E into EZ. apply number_entry in EX, EY, EZ.
    bind_in HD. injection HD as <-. destruct (direction_ok _ _ _ E) as [N ->]. split; [reflexivity|]. exists x, y, z. auto 10.
Qed.
Print Assumptions C53_direction.

Lemma described_pid spec pdg s : described spec pdg s -> source_pid s = pdg.
Proof.
  destruct (C39_pids pdg) as (_ & P & _). intros [E N1 E1 E2|N1 A1 A2|lo hi T eta s' N1 A1 A2 A3 A4 A5 A6 A7|lo hi mean beta s' N1 A1 A2 A3 A4 A5 A6 A7 A8|es ws hi ds s' N1 A1 A2 A3 A4 A5 A6|es ps m s' N1 A1 A2 A3 A4]; try reflexivity; apply P; symmetry in A7 || idtac; symmetry in A8 || idtac; symmetry in A6 || idtac; symmetry in A4 || idtac;
    first [right; left; do 4 eexists; eassumption|right; right; left; do 4 eexists; eassumption|do 6 right; do 3 eexists; eassumption].
Qed.

Lemma normalized_same g g' : slots g -> normalize g = (g', Ok tt) -> gn_rx g' = gn_rx g /\ gn_source g' = gn_source g /\ gn_target g' = gn_target g /\ gn_weight g' = gn_weight g.
Proof. intros S H. pose proof (normalize_keeps g S) as K. cbv zeta in K. rewrite H in K. cbn [fst] in K. tauto. Qed.

Lemma final_state c j k o src w def ms t (P : Prop) : ((P /\ k_gen k = building src w def ms t o (deex_of j)) \/
     (~ P /\ exists m, coulomb_mode j = Ok m /\
        let ms' := map (with_cmode m) ms in
        (exists r, In r (map mode_rxn ms') /\ x_proj r = ns_pid src) /\
        describe (building src w def ms' t o (deex_of j)) ms' = Ok tt /\
        exists g, normalize (mkgstate (map mode_rxn ms') (map (fun _ => 0) ms') src t w 1 false def None) = (g, Ok tt) /\
          k_gen k = mkgen ms' g o (deex_of j))) ->
  create_generator c j = Ok k ->
  gn_source (z_state (k_gen k)) = src /\ gn_weight (z_state (k_gen k)) = w /\ gn_target (z_state (k_gen k)) = t /\ z_deex (k_gen k) = deex_of j /\
  gn_rx (z_state (k_gen k)) = map mode_rxn (z_modes (k_gen k)).
Proof.
  intros [[_ ->]|(_ & m & _ & _ & _ & g & HN & ->)] _; [repeat split|]. cbn [z_state z_deex z_modes].
  assert (SL : slots (mkgstate (map mode_rxn (map (with_cmode m) ms)) (map (fun _ => 0) (map (with_cmode m) ms)) src t w 1 false def None)) by (unfold slots; cbn [gn_xs gn_rx]; rewrite !map_length; reflexivity).
  destruct (normalized_same _ _ SL HN) as (A & B & C & D). rewrite A, B, C, D. repeat split.
Qed.

(** The source: 10 MeV electron neutrinos (the default of every generator) if none is given
    or it is null, otherwise the one described, with the given neutrino type. The cross
    sections weight the flux unless "weight_flux" says otherwise, and residues are de-excited
    unless "do_deexcitations" is false. *)
Theorem C53_source c j k : create_generator c j = Ok k -> let g := z_state (k_gen k) in
  match held j "source" with
  | None | Some JNull => gn_source g = default_source /\ gn_weight g = true
  | Some spec => exists nu pdg s, word spec "neutrino" = Some nu /\ names_neutrino nu pdg /\ described spec pdg s /\
      ns_pid (gn_source g) = pdg /\ source_Emin s = Ok (ns_min (gn_source g)) /\ source_Emax s = Ok (ns_max (gn_source g)) /\
      (forall E v, pdf s E = Ok (Fin v) -> ns_pdf (gn_source g) E = v) /\
      match held spec "weight_flux" with None => gn_weight g = true | Some (JBool w) => gn_weight g = w | Some _ => False end
  end /\
  (z_deex (k_gen k) = false <-> held j "do_deexcitations" = Some (JBool false)).
Proof.
  intros H. destruct (create_form _ _ _ H) as (o & src & w & def & ms & t & z1 & z2 & _ & _ & _ & _ & E1 & HS & E2 & _ & _ & HK).
  assert (P : (~ held j "reactions" = Some JNull <-> held j "reactions" <> Some JNull)) by tauto.
  destruct (final_state c j k o src w def ms t _ HK H) as (F1 & F2 & _ & F4 & _). cbv zeta. rewrite F1, F2, F4. clear HK P F1 F2 F4.
  split; [|unfold deex_of; destruct (held j "do_deexcitations") as [[| | | |[|]| |]|]; split; congruence].
  subst z1 z2. unfold prepare_source in HS. bind_in HS. rename a into z.
  assert (Z : exists d', z = building default_source true d' [] None o true).
  { rewrite (has_value "energy_pdf_max" j) in E. destruct (held j "energy_pdf_max"); [bind_in E; injection E as <-; eexists; reflexivity|injection E as <-; eexists; reflexivity]. }
  destruct Z as (d' & ->). clear E. key "source" j; cbn [negb] in HS; [|injection HS as <- <- <-; auto].
  assert (G : forall spec, (do type <- text (b "type") spec (Er MarleyErr);
        do nu <- text (b "neutrino") spec (Er MarleyErr);
        do pdg <- neutrino_pdg nu;
        do s <- make_source type pdg spec;
        do g <- (if has_key (b "weight_flux") spec then
                   do v <- at_key (b "weight_flux") spec;
                   match v with JBool w => Ok (set_weight_flux (z_state (building default_source true d' [] None o true)) w) | _ => Er MarleyErr end
                 else Ok (z_state (building default_source true d' [] None o true)));
        do ns <- as_nsource s;
        let '(g', r) := set_source g (Some ns) in
        do _ <- r; Ok (with_state (building default_source true d' [] None o true) g')) = Ok (building src w def [] None o true) ->
    exists nu pdg s, word spec "neutrino" = Some nu /\ names_neutrino nu pdg /\ described spec pdg s /\
      ns_pid src = pdg /\ source_Emin s = Ok (ns_min src) /\ source_Emax s = Ok (ns_max src) /\
      (forall E v, pdf s E = Ok (Fin v) -> ns_pdf src E = v) /\
      match held spec "weight_flux" with None => w = true | Some (JBool w') => w = w' | Some _ => False end).
  { clear HS. intros spec HS. bind_in HS. rename a into type; rename E into ET. bind_in HS. rename a into nu; rename E into EN. bind_in HS. rename a into pdg; rename E into EP. bind_in HS. rename a into s; rename E into ES.
    apply text_word in ET. destruct ET as [ET|[_ ET]]; [|discriminate ET]. apply text_word in EN. destruct EN as [EN|[_ EN]]; [|discriminate EN].
    apply C53_neutrinos in EP. pose proof EP as [PN _]. apply (C53_sources _ _ _ _ ET PN) in ES.
    exists nu, pdg, s. split; [exact EN|]. split; [exact EP|]. split; [exact ES|].
    assert (NS : as_nsource s = Ok src /\ match held spec "weight_flux" with None => w = true | Some (JBool w') => w = w' | Some _ => False end).
    { rewrite (has_value "weight_flux" spec) in HS. destruct (held spec "weight_flux") as [wf|] eqn:EW.
      - rewrite (at_value _ _ _ EW) in HS. cbn [bind] in HS. destruct wf; try discriminate HS. cbn [bind] in HS. bind_in HS. unfold set_source, set_weight_flux in HS. cbn [z_state building gn_rx map] in HS. cbn [bind] in HS.
        unfold with_state, building in HS. cbn in HS. injection HS as <- <- _. auto.
      - cbn [bind] in HS. bind_in HS. unfold set_source in HS. cbn [z_state building gn_rx map] in HS. cbn [bind] in HS. unfold with_state, building in HS. cbn in HS. injection HS as <- <- _. auto. }
    destruct NS as [NS NW]. unfold as_nsource in NS. bind_in NS. bind_in NS. injection NS as <-. cbn [ns_pid ns_min ns_max ns_pdf]. split; [exact (described_pid _ _ _ ES)|].
    split; [first [assumption|reflexivity]|]. split; [first [assumption|reflexivity]|]. split; [intros x v' ->; reflexivity|exact NW]. }
  destruct v; try exact (G _ HS). injection HS as <- <- _. auto.
Qed.
Print Assumptions C53_source.

(** ** Reactions *)

Definition of_key (key : Z * proc) (ms : list mode) : list mode := filter (fun m => key_eqb key (mode_key m)) ms.
Definition uniform_file (f : list mode) : Prop := forall m m', In m f -> In m' f -> mode_key m = mode_key m'.

Lemma proc_eqb_eq p q : proc_eqb p q = true <-> p = q.
Proof. destruct p, q; cbn; split; congruence. Qed.
Lemma key_eqb_eq x y : key_eqb x y = true <-> x = y.
Proof. destruct x as [a p], y as [c q]. unfold key_eqb. cbn [fst snd]. rewrite andb_true_iff, Z.eqb_eq, proc_eqb_eq. split; [intros [-> ->]; reflexivity|intros H; injection H; auto]. Qed.

Lemma of_key_app k l m : of_key k (l ++ m) = of_key k l ++ of_key k m.
Proof. apply filter_app. Qed.
Lemma of_key_all k l : (forall m, In m l -> mode_key m = k) -> of_key k l = l.
Proof. intros H. unfold of_key. induction l as [|m l IH]; [reflexivity|]. cbn [filter]. rewrite (proj2 (key_eqb_eq k (mode_key m))) by (symmetry; apply H; left; reflexivity). f_equal. apply IH. intros x Hx. apply H. right. exact Hx. Qed.
Lemma of_key_none k l : (forall m, In m l -> mode_key m <> k) -> of_key k l = [].
Proof.
  intros H. unfold of_key. induction l as [|m l IH]; [reflexivity|]. cbn [filter]. destruct (key_eqb k (mode_key m)) eqn:E; [apply key_eqb_eq in E; exfalso; apply (H m); [left; reflexivity|congruence]|].
  apply IH. intros x Hx. apply H. right. exact Hx.
Qed.
Lemma with_cmode_key m x : mode_key (with_cmode m x) = mode_key x.
Proof. destruct x; reflexivity. Qed.
Lemma of_key_cmode k m l : of_key k (map (with_cmode m) l) = map (with_cmode m) (of_key k l).
Proof. unfold of_key. induction l as [|x l IH]; [reflexivity|]. cbn [map filter]. rewrite with_cmode_key. destruct (key_eqb _ _); cbn [map]; rewrite IH; reflexivity. Qed.

Lemma chosen_key k : forall fs seen, Forall (fun f => f <> []) fs -> Forall uniform_file fs ->
  of_key k (chosen seen fs) = if existsb (key_eqb k) seen then [] else match find (fun f => existsb (fun m => key_eqb k (mode_key m)) f) fs with Some f => f | None => [] end.
Proof.
  induction fs as [|f fs IH]; intros seen HN HU; cbn [chosen find].
  - destruct (existsb _ _); reflexivity.
  - pose proof (Forall_inv HN) as N0. pose proof (Forall_inv HU) as U0. apply Forall_inv_tail in HN, HU. destruct f as [|m f]; [contradiction|].
    set (k0 := mode_key m) in *.
    assert (K0 : forall x, In x (m :: f) -> mode_key x = k0) by (intros x Hx; apply U0; [exact Hx|left; reflexivity]).
    assert (EX : existsb (fun x => key_eqb k (mode_key x)) (m :: f) = key_eqb k k0).
    { destruct (key_eqb k k0) eqn:E; [cbn [existsb]; fold k0; rewrite E; reflexivity|]. destruct (existsb _ (m :: f)) eqn:X; [|reflexivity]. apply existsb_exists in X. destruct X as (x & X1 & X2). rewrite (K0 x X1) in X2. congruence. }
    rewrite EX. destruct (existsb (key_eqb k0) seen) eqn:ES.
    + rewrite (IH seen HN HU). destruct (existsb (key_eqb k) seen) eqn:EK; [reflexivity|]. destruct (key_eqb k k0) eqn:E; [apply key_eqb_eq in E; subst k; congruence|]. reflexivity.
    + rewrite of_key_app, (IH (seen ++ [k0]) HN HU), existsb_app. cbn [existsb]. rewrite orb_false_r. destruct (key_eqb k k0) eqn:E.
      * apply key_eqb_eq in E. subst k. rewrite ES, of_key_all by exact K0. cbn [orb]. apply app_nil_r.
      * rewrite of_key_none; [|intros x Hx; rewrite (K0 x Hx); intros ->; rewrite (proj2 (key_eqb_eq k k) eq_refl) in E; discriminate]. rewrite orb_false_r. reflexivity.
Qed.

(** The same reaction, with this Coulomb correction if it is a nuclear one. *)
Definition corrected (mode : cmode) (m m' : Run.mode) : Prop :=
  match m, m' with
  | MNuc n f, MNuc n' f' => f' = f /\ n_mode n' = mode /\ n_r n' = n_r n /\ n_mes n' = n_mes n /\ (n_ma n', n_mb n', n_mc n', n_mdgs n') = (n_ma n, n_mb n, n_mc n, n_mdgs n)
  | MEl l a, MEl l' a' => l' = l /\ a' = a
  | _, _ => False
  end.
(** The Coulomb correction asked for; both corrections by default. *)
Definition asked_mode (j : json) (mode : cmode) : Prop :=
  match held j "coulomb_mode" with
  | None => mode = FermiAndMEMA
  | Some v => exists s n, v = JStr s /\ escape s = b n /\
      In (n, mode) [("none", NoCorrection); ("Fermi", FermiFunction); ("EMA", EMA); ("MEMA", MEMA); ("Fermi-EMA", FermiAndEMA); ("Fermi-MEMA", FermiAndMEMA)]
  end.
Lemma asked j mode : coulomb_mode j = Ok mode -> asked_mode j mode.
Proof.
  unfold coulomb_mode, asked_mode. intros H. key "coulomb_mode" j; [|injection H as <-; reflexivity]. destruct v; try discriminate H. unfold cmode_of_bytes in H.
  destruct (find _ _) as [[m n]|] eqn:F; [|discriminate]. injection H as <-. apply find_some in F. destruct F as [F1 F2]. cbn [snd] in F2. apply bytes_eqb_eq in F2. exists s, n. split; [reflexivity|]. split; [exact F2|].
  cbn [cmode_names In] in *. repeat (destruct F1 as [F1|F1]; [injection F1 as <- <-; tauto|]). destruct F1.
Qed.
Lemma with_cmode_corrected m l : Forall2 (corrected m) l (map (with_cmode m) l).
Proof. induction l as [|[n f|l0 a] l IH]; cbn [map]; constructor; try exact IH; cbn [corrected with_cmode n_mode n_r n_mes n_ma n_mb n_mc n_mdgs]; auto 10. Qed.

Lemma setting_spec name least j r : setting (b name) least j = Ok r ->
  match held j name with None => r = None | Some v => exists n l, v = JInt n /\ r = Some l /\ (least <= l < 2 ^ 31)%Z /\ ((n - l) mod 2 ^ 32 = 0)%Z end.
Proof.
  unfold setting. intros H. key name j; [|injection H as <-; reflexivity]. destruct v; cbn [to_long negb] in H; try discriminate H. exists z, (to_int z). split; [reflexivity|].
  destruct (Z.ltb_spec (to_int z) least); [discriminate|]. injection H as <-. split; [reflexivity|]. assert (U : (0 <= (z + 2 ^ 31) mod 2 ^ 32 < 2 ^ 32)%Z) by (apply Z.mod_pos_bound; reflexivity).
  split; [unfold to_int in *; change (2 ^ 32)%Z with (2 * 2 ^ 31)%Z in *; lia|]. unfold to_int. replace (z - _)%Z with ((z + 2 ^ 31) - (z + 2 ^ 31) mod 2 ^ 32)%Z by lia.
  rewrite Zminus_mod_idemp_r, Z.sub_diag. reflexivity.
Qed.

(** The seed and the two cutoffs of orbital angular momentum are the integers given, reduced
    to 64 and 32 bits; negative cutoffs (or a cutoff below 1 for gammas) and values of other
    types are refused. Without an entry nothing is changed. *)
Theorem C53_settings c j k : create_generator c j = Ok k ->
  (match held j "seed" with None => k_seed k = None | Some v => exists n, v = JInt n /\ k_seed k = Some (n mod 2 ^ 64)%Z end) /\
  (match held j "fragment_lmax" with None => k_flmax k = None | Some v => exists n l, v = JInt n /\ k_flmax k = Some l /\ (0 <= l < 2 ^ 31)%Z /\ ((n - l) mod 2 ^ 32 = 0)%Z end) /\
  (match held j "gamma_lmax" with None => k_glmax k = None | Some v => exists n l, v = JInt n /\ k_glmax k = Some l /\ (1 <= l < 2 ^ 31)%Z /\ ((n - l) mod 2 ^ 32 = 0)%Z end).
Proof.
  intros H. destruct (create_form _ _ _ H) as (o & src & w & def & ms & t & z1 & z2 & HS & HF & HG & _). split; [|split].
  - unfold seed_of in HS. destruct (held j "seed") as [v|]; [|injection HS as <-; reflexivity]. destruct v; try discriminate HS. exists z. split; [reflexivity|]. injection HS as <-. reflexivity.
  - revert HF. apply setting_spec.
  - revert HG. apply setting_spec.
Qed.
Print Assumptions C53_settings.

(** The reactions of a configured generator come from the listed files, all of which were
    found and hold at least one reaction. If each file is about one process on one atom, then
    for every process and atom the generator has exactly the reactions of the first file about
    it, in their order and with the Coulomb correction asked for; later files about it are
    ignored. *)
Theorem C53_reactions c j k : create_generator c j = Ok k -> held j "reactions" <> Some JNull ->
  exists names files mode, held j "reactions" = Some (JArr names) /\ names <> [] /\ asked_mode j mode /\
    Forall2 (fun n f => f <> [] /\ exists path, Files.find_file (ce_files c) (to_string n) (ce_path c) = path /\ path <> [] /\ load_modes c (Files.f_text (ce_files c) path) = Ok f) names files /\
    (Forall uniform_file files -> forall key,
       Forall2 (corrected mode) (match find (fun f => existsb (fun m => key_eqb key (mode_key m)) f) files with Some f => f | None => [] end) (of_key key (z_modes (k_gen k)))).
Proof.
  intros H HR. destruct (create_form _ _ _ H) as (o & src & w & def & ms & t & z1 & z2 & _ & _ & _ & _ & _ & _ & E2 & HP & _ & HK).
  destruct HK as [[HK _]|(_ & m & HM & HK)]; [contradiction|]. cbv zeta in HK. destruct HK as (_ & _ & g & _ & ->). subst z2.
  destruct (reactions_form _ _ _ _ _ _ _ _ HP) as [[X _]|(names & fs & EJ & N & F & EB)]; [contradiction|].
  exists names, fs, m. split; [exact EJ|]. split; [exact N|]. split; [exact (asked _ _ HM)|].
  assert (EM : ms = chosen [] fs) by (apply (f_equal z_modes) in EB; exact EB). split.
  - clear - F. induction F as [|n f names fs [F1 F2] _ IH]; constructor; [|exact IH]. split; [exact F2|]. unfold file_modes in F1. eexists. split; [reflexivity|]. destruct (Files.find_file _ _ _); [discriminate|]. split; [discriminate|exact F1].
  - intros HU key. cbn [z_modes]. rewrite EM, of_key_cmode, chosen_key; [apply with_cmode_corrected| |exact HU]. clear - F. induction F as [|n f names fs [_ F2] _ IH]; constructor; assumption.
Qed.
Print Assumptions C53_reactions.

Lemma map_res_forall2 {A B} (f : A -> res B) l l' : map_res f l = Ok l' -> Forall2 (fun x y => f x = Ok y) l l'.
Proof. apply map_res_in. Qed.

Lemma nuclear_members pt b rs : nuclear_reactions pt b = Ok rs -> Forall (fun r => r_b r = b /\ r_proc r = pt) rs.
Proof.
  unfold nuclear_reactions. intros H. bind_in H. destruct a as [d qd]. apply map_res_forall2 in H. clear E.
  induction H as [|a r la lr H _ IH]; constructor; [|exact IH]. bind_in H. unfold nuclear_reaction in H. repeat bind_in H. injection H as <-. auto.
Qed.

Lemma load_cases nd s l : MatEl.load nd s = Ok l -> match l with Nuclear rs _ => exists pt pb, nuclear_reactions pt pb = Ok rs /\ pt <> NuElectronElastic | Electron ps => Forall (fun p => exists es, electron_reactions = Ok es /\ In (snd p) es /\ (0 < particle_A (fst p))%Z) ps end.
Proof.
  intros H. destruct l as [rs tb|ps].
  - destruct (C25_every_file s) as (ls & t & -> & HL & Ht). apply load_nuclear in H; [|exact HL|exact Ht]. destruct H as (code & pt & pb & d & ms & _ & _ & N & _ & _ & _ & H). exists pt, pb. auto.
  - apply C25_electron in H. destruct H as (ts & es & HE & -> & HF). apply Forall_forall. intros p Hp. apply in_flat_map in Hp. destruct Hp as (t & H1 & H2). apply in_map_iff in H2. destruct H2 as (r & <- & H2).
    exists es. cbn [snd fst]. rewrite Forall_forall in HF. auto.
Qed.

(** Only files about electron scattering can be about several atoms. *)
Theorem C53_uniform c text f : load_modes c text = Ok f -> uniform_file f \/ Forall (fun m => r_proc (mode_reaction m) = NuElectronElastic) f.
Proof.
  unfold load_modes. intros H. bind_in H. apply load_cases in E. destruct a as [rs tb|ps].
  - left. destruct E as (pt & pb & E & _). apply nuclear_members in E. apply map_res_forall2 in H.
    assert (K : Forall (fun m => mode_key m = (pb, pt)) f).
    { clear - E H. induction H as [|r m rs f H _ IH]; constructor; [|exact (IH (Forall_inv_tail E))]. bind_in H. injection H as <-. apply Forall_inv in E. unfold make_nuclear in E0. repeat bind_in E0. injection E0 as <-. unfold mode_key. cbn [mode_rxn x_atom mode_reaction n_r]. destruct E as [-> ->]. reflexivity. }
    intros m m' Hm Hm'. rewrite Forall_forall in K. rewrite (K _ Hm), (K _ Hm'). reflexivity.
  - right. apply map_res_forall2 in H. clear - E H. induction H as [|p m ps f H _ IH]; constructor; [|exact (IH (Forall_inv_tail E))].
    unfold make_electron in H. do 3 bind_in H. injection H as <-. cbn [mode_reaction]. unfold new_electron_reaction in E2. bind_in E2. destruct (couplings _) as [[g1 g2]|]; cbn [bind] in E2; [|discriminate]. injection E2 as <-. cbn [l_r].
    unfold electron_reaction in E3. repeat bind_in E3. injection E3 as <-. reflexivity.
Qed.
Print Assumptions C53_uniform.

(** The masses of a reaction that was loaded: the leptons' from the table of particles, the
    target's that of the atom, the residue's that of its atom less the electrons that the ion
    lacks. *)
Theorem C53_masses c text f n fermi : load_modes c text = Ok f -> In (MNuc n fermi) f ->
  let t := ce_mt c in let r := n_r n in
  particle_mass t (r_a r) = Ok (n_ma n) /\ particle_mass t (r_c r) = Ok (n_mc n) /\ n_mode n = FermiAndMEMA /\
  ((1000000000 < r_b r)%Z -> atomic_mass t (r_b r) true = Ok (n_mb n)) /\
  ((1000000000 < r_d r)%Z -> exists m me, atomic_mass t (r_d r) true = Ok m /\ particle_mass t 11 = Ok me /\ n_mdgs n = m - IZR (r_qd r) * me).
Proof.
  unfold load_modes. intros H HI. bind_in H. destruct a as [rs ms|ps].
  - apply map_res_forall2 in H. clear E. cbv zeta. revert HI. induction H as [|r m rs f H _ IH]; intros []; [|apply IH; assumption]. subst m. bind_in H. injection H as <- <-. unfold make_nuclear in E.
    do 4 bind_in E. injection E as <-. cbn [n_r n_ma n_mb n_mc n_mdgs n_mode]. split; [exact E0|]. split; [exact E1|]. split; [reflexivity|]. split.
    + intros L. apply Z.ltb_lt in L. rewrite L in E2. exact E2.
    + intros L. apply Z.ltb_lt in L. rewrite L in E3. bind_in E3. bind_in E3. injection E3 as <-. eexists. eexists. split; [reflexivity|]. split; [exact E4|]. reflexivity.
  - apply map_res_forall2 in H. exfalso. clear E. revert HI. induction H as [|p m ps f H _ IH]; intros []; [|apply IH; assumption]. subst m. unfold make_electron in H. do 3 bind_in H. discriminate H.
Qed.
Print Assumptions C53_masses.
