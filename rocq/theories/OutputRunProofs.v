(** Proofs about whole runs of the executable. *)
From Coq Require Import List Ascii String ZArith Bool Lia.
From Coq Require Import Floats.SpecFloat.
From Verif Require Import Base Dbl DigitsProofs DblProofs Json JsonSpec JsonProofs JsonNumProofs
  JsonExpProofs JsonRtProofs JsonExtraProofs Stream StreamProofs Pdg Event EventSpec EventProofs EventJsonProofs
  Output OutputSpec OutputProofs OutputLoopProofs.
Import ListNotations.
Local Open Scope Z_scope.

Lemma write_many_ascii : forall evs f, t_format f = FAscii ->
  exists a, write_many evs f = Ok (f, a) /\ forall s, apply_acts a (Some s) = Some (s ++ events_text evs).
Proof.
  induction evs as [|ev evs IH]; intros f Hf; cbn [write_many].
  - exists []. split; [reflexivity|]. intros s. cbn. rewrite app_nil_r. reflexivity.
  - unfold write_event at 1. rewrite Hf. cbn [bind]. destruct (IH f Hf) as (a & E & Ha). rewrite E. cbn [bind].
    eexists. split; [reflexivity|]. intros s. rewrite apply_acts_app. cbn [apply_acts fold_left apply_act].
    change (apply_acts a (Some (s ++ print_event ev)) = Some (s ++ events_text (ev :: evs))).
    rewrite Ha. rewrite <- app_assoc. reflexivity.
Qed.

Lemma write_many_hep : forall evs f, t_format f = FHepevt ->
  exists a, write_many evs f = Ok (f, a) /\
    forall s, apply_acts a (Some s) = Some (s ++ flat_map (print_hepevt 0 (t_flux f)) evs).
Proof.
  induction evs as [|ev evs IH]; intros f Hf; cbn [write_many].
  - exists []. split; [reflexivity|]. intros s. cbn. rewrite app_nil_r. reflexivity.
  - unfold write_event at 1. rewrite Hf. cbn [bind]. destruct (IH f Hf) as (a & E & Ha). rewrite E. cbn [bind].
    eexists. split; [reflexivity|]. intros s. rewrite apply_acts_app. cbn [apply_acts fold_left apply_act].
    change (apply_acts a (Some (s ++ print_hepevt 0 (t_flux f) ev)) =
            Some (s ++ flat_map (print_hepevt 0 (t_flux f)) (ev :: evs))).
    rewrite Ha. rewrite <- app_assoc. reflexivity.
Qed.

Lemma json_received : forall P R i es evs fd fd', text_class P R -> json_at i es (fst fd) (snd fd) ->
  Forall (fun ev => all_floats P (event_json ev)) evs -> received evs fd fd' ->
  exists new, Forall2 (rel_value R) (map event_json evs) (map el_val new) /\
    json_at i (es ++ new) (fst fd') (snd fd').
Proof.
  intros P R i es evs fd fd' HPR Hat Hev (a & A1 & A2).
  destruct (write_many_json P R i evs es _ _ HPR Hat Hev) as (f' & a' & new & E1 & E2 & E3 & _).
  rewrite A1 in E1. injection E1 as E1 E1'. subst f' a'. exists new. rewrite A2. split; [|exact E3].
  clear - E2. induction E2; constructor; auto.
Qed.

Lemma json_at_flux : forall i es f d x, json_at i es f d ->
  json_at i es (fst (write_flux x d f)) (apply_acts (snd (write_flux x d f)) d).
Proof.
  intros i es f d x (H1 & H2 & H3 & H4 & H5). unfold write_flux. rewrite H1.
  cbn [fst snd apply_acts fold_left]. repeat split; cbn; assumption.
Qed.

Section gen.
Variable C : Type.
Variable create : Z -> json -> res (generator C).
Variable next : C -> rng -> res (event * C * rng).
Variable flux : C -> spec_float.

Definition after_flux (x : spec_float) (fd : outfile) : outfile :=
  let '(f, a) := write_flux x (snd fd) (fst fd) in (f, apply_acts a (snd fd)).

Lemma fresh_state : forall fd, fresh_file fd ->
  match t_format (fst fd) with
  | FAscii | FHepevt => snd fd = Some []
  | FJson => json_at (t_indent (fst fd)) [] (fst fd) (snd fd)
  | FRoot => False
  end.
Proof.
  intros [f d] (fmt & force & i & old & ans & a & H & Hm & Hr & Hd). cbn [fst snd] in *.
  unfold open_file, parse_settings in H.
  destruct (parse_format fmt) as [f0|]; [|discriminate H].
  change (bytes_eqb (b "overwrite") (b "overwrite")) with true in H. cbn [bind] in H.
  destruct (_ && _ && _) in H.
  - destruct f0; cbn [bind] in H; try (injection H as <- <-; discriminate Hm); try discriminate H.
    destruct old; [|discriminate H]. injection H as <- <-. discriminate Hm.
  - destruct f0; injection H as <- <-; cbn [t_format t_indent] in *; try congruence; try (subst d; reflexivity).
    subst d. unfold json_at. cbn [open_body apply_acts fold_left apply_act t_format t_indent t_comma app].
    rewrite app_nil_r. repeat split. constructor.
Qed.

Lemma events_floats : forall P evs, Forall (event_ok P) evs ->
  Forall (fun ev => all_floats P (event_json ev)) evs /\ Forall ints_ok evs.
Proof.
  intros P evs H. induction H; split; constructor; try tauto; [apply event_floats|eapply event_ok_ints]; eassumption.
Qed.

Lemma fresh_holds : forall config g' n x evs fd fd', fresh_file fd ->
  Forall (event_ok normal_dbl) evs -> savable flux normal_dbl config g' n ->
  received evs (after_flux x fd) fd' ->
  holds flux config g' n x evs (t_format (fst fd))
    (apply_acts (close_file C flux config g' n (fst fd')) (snd fd')).
Proof.
  intros config g' n x evs fd fd' Hf Hev Hsv Hr. pose proof (fresh_state fd Hf) as Hs.
  destruct fd as [f d]. cbn [fst snd] in *. unfold after_flux in Hr. cbn [fst snd] in Hr.
  destruct (t_format f) eqn:Ef; [contradiction| | |].
  - subst d. unfold write_flux in Hr. rewrite Ef in Hr. destruct Hr as (a & A1 & A2). cbn [fst snd] in *.
    destruct (write_many_hep evs (mkt FHepevt (t_mode f) (t_indent f) (t_comma f) x) eq_refl) as (a' & E1 & E2).
    rewrite A1 in E1. injection E1 as E1 E1'. subst a'. rewrite A2. unfold close_file. rewrite E1. cbn [t_format].
    cbn [apply_acts fold_left]. cbn [apply_acts fold_left] in E2. exact (E2 []).
  - destruct (events_floats _ _ Hev) as [Hfl Hin].
    pose proof (json_at_flux _ _ _ _ x Hs) as Hat. destruct (write_flux x d f) as [f1 a1].
    destruct (json_received normal_dbl best_num _ [] evs (f1, apply_acts a1 d) fd' class_best Hat Hfl Hr)
      as (new & N1 & N2). cbn [app] in N2.
    destruct (close_json C flux normal_dbl best_num _ _ _ _ config g' n class_best N2 Hsv) as (s & S1 & S2).
    exists s, (map el_val new). split; [exact S1|]. split; [exact S2|].
    eapply stores_rel; [exact numeric_best|exact read_as_best|exact Hin|exact N1].
  - subst d. unfold write_flux in Hr. rewrite Ef in Hr. destruct Hr as (a & A1 & A2). cbn [fst snd] in *.
    destruct (write_many_ascii evs (mkt FAscii (t_mode f) (t_indent f) (t_comma f) x) eq_refl) as (a' & E1 & E2).
    rewrite A1 in E1. injection E1 as E1 E1'. subst a'. rewrite A2. unfold close_file. rewrite E1. cbn [t_format].
    cbn [holds]. change (apply_acts a (Some (show_e17 x ++ [nl])) = Some (show_e17 x ++ nl :: events_text evs)).
    rewrite E2. rewrite <- app_assoc. reflexivity.
Qed.

Lemma flux_all_map : forall x fs, flux_all x fs = map (after_flux x) fs.
Proof. intros. apply map_ext. intros [f d]. reflexivity. Qed.

Lemma resume_all_none : forall now fs g0, Forall (fun fd => t_mode (fst fd) <> Resume) fs ->
  resume_all C create now fs g0 = Ok (g0, fs).
Proof.
  induction fs as [|[f d] fs IH]; intros g0 H; [reflexivity|]. inversion H as [|? ? H1 H2]; subst.
  cbn [resume_all]. cbn [fst] in H1. destruct (t_mode f); try congruence; rewrite IH by exact H2; reflexivity.
Qed.

Lemma run_fresh : forall now config num intr fs n g' ds,
  Forall fresh_file fs -> is_long num -> 0 <= num -> all_floats normal_dbl config ->
  (forall g, create now config = Ok g -> printable C next flux normal_dbl g) ->
  run C create next flux now config num intr fs = Ok (n, g', ds) ->
  exists g evs, create now config = Ok g /\ produces C next (Z.to_nat n) g = Ok (evs, g') /\
    0 <= n <= num /\ len evs = n /\
    (forall j, Z.of_nat j < n -> intr j = false) /\ (n < num -> intr (Z.to_nat n) = true) /\
    Forall2 (fun fd d => holds flux config g' n (flux (g_cfg g)) evs (t_format (fst fd)) d) fs ds.
Proof.
  intros now config num intr fs n g' ds Hfs Hnum Hnn Hcf Hpr H. unfold run in H.
  rewrite resume_all_none in H.
  2:{ eapply Forall_impl; [|exact Hfs]. intros fd (? & ? & ? & ? & ? & ? & _ & Hm & _). congruence. }
  cbn [bind] in H. destruct (create now config) as [g|] eqn:Eg; [|discriminate H]. cbn [bind] in H.
  apply generate_spec in H as (m & evs & fs' & G1 & G2 & G3 & G4 & G5 & G6 & G7 & G8).
  destruct (Hpr g eq_refl m evs g' G1) as [Hev Hfx].
  assert (Hm : Z.to_nat n = m) by lia.
  exists g, evs. split; [reflexivity|]. rewrite Hm. split; [exact G1|]. split; [lia|].
  split; [unfold len; lia|]. split; [intros j Hj; apply G5; lia|]. split; [exact G6|].
  assert (Hsv : savable flux normal_dbl config g' n).
  { split; [exact Hcf|]. split; [exact Hfx|]. unfold is_long, long_min, long_max in *. lia. }
  subst ds. rewrite flux_all_map in G7. clear - Hfs G7 Hev Hsv. revert fs' G7.
  induction Hfs as [|fd fs Hf Hfs IH]; intros fs' H; inversion H; subst; constructor.
  - apply fresh_holds; assumption.
  - apply IH. assumption.
Qed.

(** ** A run that resumes one file and writes fresh ones beside it *)

Lemma resume_all_one : forall now pre post f s g n f' a,
  Forall (fun fd : outfile => t_mode (fst fd) <> Resume) pre ->
  Forall (fun fd : outfile => t_mode (fst fd) <> Resume) post ->
  t_mode f = Resume -> resume C create now s f = (Ok (g, n, f'), a) ->
  resume_all C create now (pre ++ (f, Some s) :: post) None
  = Ok (Some (g, n), pre ++ (f', apply_acts a (Some s)) :: post).
Proof.
  intros now pre post f s g n f' a Hpre Hpost Hm Hr. induction Hpre as [|[f1 d1] pre H1 H2 IH].
  - cbn [app resume_all]. rewrite Hm, Hr. cbn [bind]. rewrite resume_all_none by exact Hpost. reflexivity.
  - cbn [app resume_all]. cbn [fst] in H1. destruct (t_mode f1); try congruence; rewrite IH; reflexivity.
Qed.

Lemma fresh_mode : forall fs, Forall fresh_file fs -> Forall (fun fd => t_mode (fst fd) <> Resume) fs.
Proof.
  intros fs H. eapply Forall_impl; [|exact H]. intros fd (? & ? & ? & ? & ? & ? & _ & Hm & _). congruence.
Qed.

Lemma run_resumed : forall now config num intr pre post f s l config0 g0 k n g' ds,
  Forall fresh_file pre -> Forall fresh_file post -> is_long num -> k <= num -> 0 <= k ->
  all_floats normal_dbl config ->
  closed_file flux best_num s l config0 g0 k -> Forall (all_floats normal_dbl) l -> rng_ok (g_rng g0) ->
  (forall cfg, rel_value best_num config0 cfg -> exists g1, create now cfg = Ok g1 /\
     List.length (g_rng g1) = List.length (g_rng g0) /\
     printable C next flux normal_dbl (mkg (g_cfg g1) (g_rng g0) (g_seed g1))) ->
  t_mode f = Resume -> t_format f = FJson ->
  run C create next flux now config num intr (pre ++ (f, Some s) :: post) = Ok (n, g', ds) ->
  exists cfg g1 evs m dpre s' l' dpost, rel_value best_num config0 cfg /\ create now cfg = Ok g1 /\
    produces C next m (mkg (g_cfg g1) (g_rng g0) (g_seed g1)) = Ok (evs, g') /\ List.length evs = m /\
    n = k + Z.of_nat m /\ n <= num /\
    (forall j, (j < m)%nat -> intr j = false) /\ (n < num -> intr m = true) /\
    ds = dpre ++ Some s' :: dpost /\
    closed_file flux best_num s' l' config g' n /\
    Forall2 (rel_value best_num) (l ++ map event_json evs) l' /\
    Forall2 (fun fd d => holds flux config g' n (flux (g_cfg g1)) evs (t_format (fst fd)) d) pre dpre /\
    Forall2 (fun fd d => holds flux config g' n (flux (g_cfg g1)) evs (t_format (fst fd)) d) post dpost.
Proof.
  intros now config num intr pre post f s l config0 g0 k n g' ds Hpre Hpost Hnum Hk Hk0 Hcf Hcl Hl Hrng Hcr Hm Hf H.
  assert (Hcr' : forall cfg, rel_value best_num config0 cfg -> exists g1, create now cfg = Ok g1 /\
     List.length (g_rng g1) = List.length (g_rng g0)).
  { intros cfg Hc. destruct (Hcr cfg Hc) as (g1 & E1 & E2 & _). eauto. }
  destruct (resume_json C create flux normal_dbl best_num best_num s l config0 g0 k now f
              class_best Hl Hcl Hrng Hm Hf Hcr') as (f' & a & es & cfg & g1 & R1 & R2 & R3 & R4 & R5 & R6).
  destruct (Hcr cfg R1) as (g1' & D1 & D2 & D3). rewrite R2 in D1. injection D1 as <-.
  unfold run in H. rewrite (resume_all_one now pre post f s _ _ _ _ (fresh_mode _ Hpre) (fresh_mode _ Hpost) Hm R3) in H.
  cbn [bind] in H. set (g2 := mkg (g_cfg g1) (g_rng g0) (g_seed g1)) in *.
  apply generate_spec in H as (m & evs & fs' & G1 & G2 & G3 & G4 & G5 & G6 & G7 & G8).
  destruct (D3 m evs g' G1) as [Hev Hfx].
  assert (Hsv : savable flux normal_dbl config g' n).
  { split; [exact Hcf|]. split; [exact Hfx|]. unfold is_long, long_min, long_max in *. lia. }
  destruct (events_floats _ _ Hev) as [Hfl Hin].
  change (g_cfg g2) with (g_cfg g1) in G7.
  rewrite flux_all_map, map_app in G7. cbn [map] in G7.
  apply Forall2_app_inv_l in G7 as (fs1 & fs2 & Q1 & Q2 & ->).
  inversion Q2 as [|? fd' ? fs3 Q3 Q4]; subst fs2. clear Q2. 
  pose proof (json_at_flux _ _ _ _ (flux (g_cfg g1)) (R5 (Some s))) as Hat.
  unfold after_flux in Q3. cbn [fst snd] in Q3. destruct (write_flux (flux (g_cfg g1)) (apply_acts a (Some s)) f') as [f1 a1].
  destruct (json_received normal_dbl best_num _ es evs (f1, apply_acts a1 (apply_acts a (Some s))) fd' class_best Hat Hfl Q3)
      as (new & N1 & N2).
  destruct (close_json C flux normal_dbl best_num _ _ _ _ config g' n class_best N2 Hsv) as (s' & S1 & S2).
  exists cfg, g1, evs, m. do 4 eexists.
  split; [exact R1|]. split; [exact R2|]. split; [exact G1|]. split; [exact G2|]. split; [exact G3|]. split; [lia|].
  split; [exact G5|]. split; [exact G6|].
  split; [rewrite G8; unfold close_all; rewrite map_app; cbn [map]; rewrite S1; reflexivity|].
  split; [exact S2|]. split.
  { rewrite map_app. apply Forall2_app; [|exact N1]. clear - R4. induction R4; constructor; auto. }
  assert (HF : forall (fs fs' : list outfile), Forall fresh_file fs ->
     Forall2 (received evs) (map (after_flux (flux (g_cfg g1))) fs) fs' ->
     Forall2 (fun fd d => holds flux config g' n (flux (g_cfg g1)) evs (t_format (fst fd)) d) fs
       (map (fun fd => apply_acts (close_file C flux config g' n (fst fd)) (snd fd)) fs')).
  { intros fs fs' Hfs. revert fs'. induction Hfs as [|fd fs Hfd Hfs IH]; intros fs' HQ; inversion HQ; subst; constructor.
    - apply fresh_holds; assumption.
    - apply IH. assumption. }
  split; apply HF; assumption.
Qed.

(** ** Chains of runs *)

Lemma produces_app : forall n m g l g1, produces C next n g = Ok (l, g1) ->
  produces C next (n + m) g = do (l2, g2) <- produces C next m g1; Ok (l ++ l2, g2).
Proof.
  induction n as [|n IH]; intros m g l g1 H.
  - injection H as <- <-. cbn [Nat.add app]. destruct (produces C next m g) as [[l2 g2]|]; reflexivity.
  - cbn [produces Nat.add] in *. destruct (create_event C next g) as [[ev g']|]; [|discriminate H]. cbn [bind] in *.
    destruct (produces C next n g') as [[l1 g1']|] eqn:E; [|discriminate H]. cbn [bind] in H. injection H as <- <-.
    rewrite (IH m g' l1 g1' E). destruct (produces C next m g1') as [[l2 g2]|]; reflexivity.
Qed.

(** The events depend on the configured part and the random engine only. *)
Lemma produces_same : forall n g g2 l g1, g_cfg g = g_cfg g2 -> g_rng g = g_rng g2 ->
  produces C next n g = Ok (l, g1) ->
  exists g3, produces C next n g2 = Ok (l, g3) /\ g_cfg g3 = g_cfg g1 /\ g_rng g3 = g_rng g1.
Proof.
  induction n as [|n IH]; intros g g2 l g1 H1 H2 H; cbn [produces] in *.
  - injection H as <- <-. eauto.
  - unfold create_event in *. rewrite <- H1, <- H2. destruct (next (g_cfg g) (g_rng g)) as [[[ev c] r]|]; [|discriminate H].
    cbn [bind] in *. destruct (produces C next n (mkg c r (g_seed g))) as [[l' g']|] eqn:E; [|discriminate H].
    cbn [bind] in H. injection H as <- <-.
    destruct (IH (mkg c r (g_seed g)) (mkg c r (g_seed g2)) _ _ eq_refl eq_refl E) as (g3 & E3 & F1 & F2).
    rewrite E3. cbn [bind]. eauto.
Qed.

Section chain.
Variable config : json.
Variable c0 : C.
Variable size : nat.
Hypothesis Hst : stateless C create next flux config c0 size.

Definition gen_ok (g : generator C) : Prop :=
  g_cfg g = c0 /\ List.length (g_rng g) = size /\ rng_ok (g_rng g).

Lemma produces_ok : forall n g, gen_ok g -> exists l g', produces C next n g = Ok (l, g') /\
  gen_ok g' /\ Forall (event_ok fixed_dbl) l /\ List.length l = n.
Proof.
  destruct Hst as (_ & Hnx & _).
  induction n as [|n IH]; intros g (H1 & H2 & H3).
  - exists [], g. repeat split; auto; apply H3.
  - destruct (Hnx (g_rng g) H2 H3) as (ev & r' & N1 & N2 & N3 & N4).
    destruct (IH (mkg c0 r' (g_seed g)) (conj eq_refl (conj N2 N3))) as (l & g' & E1 & E2 & E3 & E4).
    exists (ev :: l), g'. cbn [produces]. unfold create_event. rewrite H1, N1. cbn [bind]. rewrite E1. cbn [bind].
    split; [reflexivity|]. split; [exact E2|]. split; [constructor; assumption|]. cbn. lia.
Qed.

(** What the file holds after k events have been produced from g0. *)
Definition chain_inv (g0 : generator C) (k : nat) (s : bytes) : Prop :=
  exists evs g' gs l, produces C next k g0 = Ok (evs, g') /\ List.length evs = k /\
    Forall (event_ok fixed_dbl) evs /\
    gen_ok gs /\ g_rng gs = g_rng g' /\ g_cfg g' = c0 /\
    closed_file flux best_num s l config gs (Z.of_nat k) /\
    Forall2 (rel_value same_num) (map event_json evs) l.

Lemma savable_ok : forall g n, gen_ok g -> is_long n -> savable flux normal_dbl config g n.
Proof.
  intros g n (H1 & _) Hn. destruct Hst as (_ & _ & H2 & H3). split; [exact H2|]. split; [rewrite H1; exact H3|exact Hn].
Qed.

(** From a file in state [es], a run adds events and closes the file. *)
Lemma generate_json : forall i es f d num old intr g, gen_ok g -> is_long num -> (Z.of_nat old <= num) ->
  json_at i es f d ->
  exists m evs g' s new, generate C next flux config num (Z.of_nat old) intr g [(f, d)]
      = Ok (Z.of_nat old + Z.of_nat m, g', [Some s]) /\
    produces C next m g = Ok (evs, g') /\ List.length evs = m /\ Forall (event_ok fixed_dbl) evs /\ gen_ok g' /\
    Z.of_nat old + Z.of_nat m <= num /\
    ((forall j, intr j = false) -> Z.of_nat old + Z.of_nat m = num) /\
    Forall2 (rel_value same_num) (map event_json evs) (map el_val new) /\
    closed_file flux best_num s (map el_val (es ++ new)) config g' (Z.of_nat old + Z.of_nat m).
Proof.
  intros i es f d num old intr g Hg Hnum Hle Hat.
  assert (HG : exists r, generate C next flux config num (Z.of_nat old) intr g [(f, d)] = Ok r).
  { destruct (produces_ok (Z.to_nat (num - Z.of_nat old)) g Hg) as (l & g2 & E & _).
    unfold generate.
    destruct (loop_progress C next (Z.to_nat (num - Z.of_nat old)) 0 intr (1 + Z.of_nat old) g
                (flux_all (flux (g_cfg g)) [(f, d)]) l g2 E) as ([[n g3] fs3] & E3).
    - rewrite flux_all_map. constructor; [|constructor]. unfold after_flux. cbn [fst snd].
      destruct Hat as (Hf & _). unfold write_flux. rewrite Hf. cbn. congruence.
    - rewrite E3. cbn [bind]. eauto. }
  destruct HG as ([[n g'] ds] & HG). pose proof HG as HG0.
  apply generate_spec in HG as (m & evs & fs' & G1 & G2 & G3 & G4 & G5 & G6 & G7 & G8).
  destruct (produces_ok m g Hg) as (l' & g2 & E & Hg' & Hev & _). rewrite G1 in E. injection E as <- <-.
  rewrite flux_all_map in G7. cbn [map] in G7. inversion G7 as [|? fd' ? fs1 Hr Hnil]; subst.
  inversion Hnil; subst.
  pose proof (json_at_flux _ _ _ _ (flux (g_cfg g)) Hat) as Hat'.
  unfold after_flux in Hr. cbn [fst snd] in Hr. destruct (write_flux (flux (g_cfg g)) d f) as [f1 a1].
  destruct (events_floats _ _ Hev) as [Hfl _].
  destruct (json_received fixed_dbl same_num _ es evs (f1, apply_acts a1 d) fd' class_fixed Hat' Hfl Hr)
      as (new & N1 & N2).
  assert (Hn : is_long (Z.of_nat old + Z.of_nat (List.length evs))) by (unfold is_long, long_min, long_max in *; lia).
  destruct (close_json C flux normal_dbl best_num _ _ _ _ config g' _ class_best N2 (savable_ok g' _ Hg' Hn))
    as (s & S1 & S2).
  exists (List.length evs), evs, g', s, new. rewrite HG0. unfold close_all. cbn [map]. rewrite S1.
  split; [reflexivity|]. split; [exact G1|]. split; [reflexivity|]. split; [exact Hev|]. split; [exact Hg'|].
  split; [lia|]. split; [|split; [exact N1|exact S2]].
  intros Hi. destruct (Z.lt_ge_cases (Z.of_nat old + Z.of_nat (List.length evs)) num) as [Hl|Hl]; [|lia].
  specialize (G6 Hl). rewrite Hi in G6. discriminate G6.
Qed.

Lemma first_inv : forall j old, is_long (j_num j) -> 0 <= j_num j ->
  exists g0 k g' s, create (j_now j) config = Ok g0 /\ gen_ok g0 /\
    first_run C create next flux config j old = Ok (Z.of_nat k, g', s) /\ chain_inv g0 k s /\
    Z.of_nat k <= j_num j /\ ((forall i, j_intr j i = false) -> Z.of_nat k = j_num j).
Proof.
  intros j old Hl H0. destruct (proj1 Hst (j_now j) config (or_intror eq_refl)) as (g0 & C1 & C2 & C3 & C4).
  assert (Hg : gen_ok g0) by (repeat split; auto; apply C4).
  destruct (open_fresh (j_indent j) (match old with Some _ => true | None => false end)) as (f & a & E & Ea & F1 & F2 & Hat).
  destruct (generate_json (j_indent j) [] f (apply_acts a old) (j_num j) 0%nat (j_intr j) g0 Hg Hl H0 (Hat old))
    as (m & evs & g' & s & new & G1 & G2 & G3 & G4 & G5 & G6 & G7 & G8 & G9).
  cbn [app Z.of_nat] in *. rewrite Z.add_0_l in *.
  exists g0, m, g', s. split; [exact C1|]. split; [exact Hg|]. split.
  - unfold first_run. rewrite E. cbn [bind]. unfold run. cbn [resume_all]. rewrite F2. cbn [bind].
    rewrite C1. cbn [bind]. change (Z.of_nat 0) with 0 in G1. unfold outfile in *. rewrite G1. reflexivity.
  - split; [|split; assumption]. exists evs, g', g', (map el_val new). repeat split; auto; try apply G5; try apply G9.
Qed.

Lemma resumed_inv : forall j g0 k s, gen_ok g0 -> is_long (j_num j) -> Z.of_nat k <= j_num j -> chain_inv g0 k s ->
  exists k' g' s', resumed_run C create next flux config j s = Ok (Z.of_nat k', g', s') /\
    chain_inv g0 k' s' /\ Z.of_nat k' <= j_num j /\ ((forall i, j_intr j i = false) -> Z.of_nat k' = j_num j).
Proof.
  intros j g0 k s Hg0 Hl Hk (evs & g1 & gs & l & I1 & I2 & I3 & I4 & I5 & I6 & I7 & I8).
  assert (Hfl : Forall (all_floats fixed_dbl) l).
  { eapply rel_list_floats; [exact stable_fixed| |exact I8|eapply closed_wf; exact I7].
    rewrite Forall_map. apply events_floats. exact I3. }
  set (f0 := mkt FJson Resume (j_indent j) false dbl_zero).
  assert (Hcr : forall cfg, rel_value best_num config cfg -> exists g, create (j_now j) cfg = Ok g /\
            List.length (g_rng g) = List.length (g_rng gs)).
  { intros cfg Hc. destruct (proj1 Hst (j_now j) cfg (or_introl Hc)) as (g & C1 & _ & C3 & _).
    exists g. split; [exact C1|]. rewrite C3. symmetry. apply I4. }
  destruct (resume_json C create flux fixed_dbl same_num best_num s l config gs (Z.of_nat k) (j_now j) f0
              class_fixed Hfl I7 (proj2 (proj2 I4)) eq_refl eq_refl Hcr)
    as (f' & a & es & cfg & g2 & R1 & R2 & R3 & R4 & R5 & R6).
  destruct (proj1 Hst (j_now j) cfg (or_introl R1)) as (g2' & D1 & D2 & D3 & D4).
  rewrite R2 in D1. injection D1 as <-.
  set (g3 := mkg (g_cfg g2) (g_rng gs) (g_seed g2)) in *.
  assert (Hg3 : gen_ok g3).
  { split; [exact D2|]. split; [apply I4|apply I4]. }
  destruct (generate_json (j_indent j) es f' (apply_acts a (Some s)) (j_num j) k (j_intr j) g3 Hg3 Hl Hk (R5 (Some s)))
    as (m & evs2 & g' & s' & new & G1 & G2 & G3 & G4 & G5 & G6 & G7 & G8 & G9).
  exists (k + m)%nat, g', s'. rewrite Nat2Z.inj_add. split.
  { unfold resumed_run.
    change (open_file (b "json") (b "resume") false (j_indent j) true true) with (Ok (f0, [Create])).
    cbn [bind]. unfold run. cbn [resume_all]. change (t_mode f0) with Resume. cbv iota.
    change (apply_acts [Create] (Some s)) with (Some s). cbv iota. rewrite R3. cbn [bind].
    unfold outfile in *. rewrite G1. reflexivity. }
  split; [|split; [exact G6|exact G7]].
  destruct (produces_same m g3 g1 evs2 g') as (g4 & P1 & P2 & P3).
  { unfold g3. cbn [g_cfg]. rewrite D2, I6. reflexivity. }
  { unfold g3. cbn [g_rng]. exact I5. }
  { exact G2. }
  exists (evs ++ evs2), g4, g', (map el_val (es ++ new)).
  split; [rewrite (produces_app k m g0 evs g1 I1), P1; reflexivity|].
  split; [rewrite app_length; lia|]. split; [apply Forall_app; auto|]. split; [exact G5|].
  split; [auto|]. split; [rewrite P2; apply G5|]. rewrite Nat2Z.inj_add. split; [exact G9|].
  rewrite !map_app. apply Forall2_app; [|exact G8].
  eapply rel_list_trans; [exact stable_fixed|exact I8|]. clear - R4. induction R4; constructor; auto.
Qed.

Lemma runs_inv : forall l g0 k s N, gen_ok g0 -> is_long N -> Z.of_nat k <= N ->
  Forall (fun j => j_num j = N) l -> chain_inv g0 k s ->
  exists k' s', resumed_runs C create next flux config l s = Ok s' /\ chain_inv g0 k' s' /\ Z.of_nat k' <= N /\
    (l <> [] -> (forall i, j_intr (last l (mkj 0 0 (fun _ => true) None)) i = false) -> Z.of_nat k' = N).
Proof.
  induction l as [|j l IH]; intros g0 k s N Hg Hl Hk HN Hinv.
  - exists k, s. repeat split; auto. congruence.
  - inversion HN as [|? ? H1 H2]; subst.
    destruct (resumed_inv j g0 k s Hg Hl Hk Hinv) as (k' & g' & s' & E1 & E2 & E3 & E4).
    destruct (IH g0 k' s' (j_num j) Hg Hl E3 H2 E2) as (k2 & s2 & F1 & F2 & F3 & F4).
    exists k2, s2. cbn [resumed_runs]. rewrite E1. cbn [bind]. split; [exact F1|]. split; [exact F2|]. split; [exact F3|].
    intros _ Hi. destruct l as [|j2 l]; [|apply F4; [discriminate|exact Hi]].
    cbn [last] in Hi. cbn [resumed_runs] in F1. injection F1 as <-. specialize (E4 Hi).
    destruct E2 as (x1 & x2 & x3 & x4 & _ & _ & _ & _ & _ & _ & (_ & gA & LA & cA & xA & -> & _) & _).
    destruct F2 as (y1 & y2 & y3 & y4 & _ & _ & _ & _ & _ & _ & (_ & gB & LB & cB & xB & -> & _) & _).
    rewrite LA in LB. injection LB as _ _ Hkk. lia.
Qed.

Lemma chain_stores : forall g0 k s, chain_inv g0 k s ->
  exists evs g' gs l, produces C next k g0 = Ok (evs, g') /\
    closed_file flux best_num s l config gs (Z.of_nat k) /\ g_rng gs = g_rng g' /\
    Forall2 (stores same_dbl) evs l.
Proof.
  intros g0 k s (evs & g' & gs & l & I1 & I2 & I3 & I4 & I5 & I6 & I7 & I8).
  exists evs, g', gs, l. split; [exact I1|]. split; [exact I7|]. split; [exact I5|].
  eapply stores_rel; [exact numeric_same|exact read_as_same|apply events_floats in I3; tauto|exact I8].
Qed.

End chain.
End gen.
