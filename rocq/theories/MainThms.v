(** Theorems about the marley executable (C73). *)
From Coq Require Import List Ascii String ZArith Bool Lia.
From Coq Require Import Floats.SpecFloat.
From Verif Require Import Base Dbl DigitsProofs DblProofs Json JsonSpec JsonRtProofs JsonExtraProofs Stream Strings Pdg Event EventSpec
  EventThms Output OutputSpec OutputProofs OutputLoopProofs OutputRunProofs OutputThms Main MainSpec MainProofs.
Import ListNotations.
Local Open Scope Z_scope.

Section gen.
Variable C : Type.
Variable create : Z -> json -> res (generator C).
Variable next : C -> rng -> res (event * C * rng).
Variable flux : C -> spec_float.
Variable configure : json -> res unit.
Notation marley := (main C create next flux configure).

(** ** The command line *)

(** Without arguments, or with an option first, no file changes and the status is 0, whether or
    not there is such an option. Only the first argument counts. *)
Theorem C73_command_line : forall now intr w,
  marley now intr [] w = (w, Ok 0) /\
  (forall o rest, marley now intr (("-"%char :: o) :: rest) w = (w, Ok 0)) /\
  (forall cfg rest, marley now intr (cfg :: rest) w = marley now intr [cfg] w).
Proof.
  intros now intr w. split; [reflexivity|]. split; [|reflexivity]. intros o rest. unfold main, command_line.
  cbn [firstn]. change (bytes_eqb ["-"%char] (b "-")) with true. cbn [negb].
  destruct (bytes_eqb _ (b "-h") || _); [reflexivity|]. destruct (_ || _); [reflexivity|]. destruct (bytes_eqb _ _); reflexivity.
Qed.

Lemma main_job : forall now intr cfg rest w, hd_error cfg <> Some "-"%char ->
  marley now intr (cfg :: rest) w =
  (fst (job C create next flux configure now intr cfg w),
   match snd (job C create next flux configure now intr cfg w) with
   | Ok _ => Ok 0 | Er Undefined => Er Undefined | Er NoFuel => Er NoFuel | Er _ => Ok 1 end).
Proof.
  intros now intr cfg rest w H. unfold main, command_line.
  assert (E : bytes_eqb (firstn 1 cfg) (b "-") = false).
  { destruct (bytes_eqb (firstn 1 cfg) (b "-")) eqn:E; [|reflexivity]. apply bytes_eqb_eq in E.
    destruct cfg as [|c cfg]; [discriminate E|]. cbn [firstn] in E. injection E as ->. cbn in H. congruence. }
  rewrite E. cbn [negb]. destruct (job C create next flux configure now intr cfg w) as [w' r]. reflexivity.
Qed.

Lemma status_thrown : forall (r : res Z), (match r with Ok _ => Ok 0 | Er Undefined => Er Undefined | Er NoFuel => Er NoFuel | Er _ => Ok 1 end) = Ok 1 ->
  exists e, r = Er e /\ thrown e.
Proof. intros [|[]] H; try discriminate H; eexists; (split; [reflexivity|split; discriminate]). Qed.
Lemma thrown_status : forall e, thrown e -> (match (Er e : res Z) with Ok _ => Ok 0 | Er Undefined => Er Undefined | Er NoFuel => Er NoFuel | Er _ => Ok 1 end) = Ok 1.
Proof. intros [] [H1 H2]; try reflexivity; congruence. Qed.

(** ** What a run leaves behind *)

(** Status 0: the number of events is the one asked for unless the run was interrupted, in
    which case it is the number finished before the interruption. Every file listed holds
    these events, the same in all, and no other file has changed. *)
Theorem C73_done : forall now intr cfg rest w j num rs w',
  hd_error cfg <> Some "-"%char -> plan w cfg j num rs -> configure j = Ok tt -> all_floats normal_dbl j ->
  (forall g, create now j = Ok g -> printable C next flux normal_dbl g) ->
  marley now intr (cfg :: rest) w = (w', Ok 0) ->
  exists g n evs g', create now j = Ok g /\ produces C next n g = Ok (evs, g') /\ List.length evs = n /\
    Z.of_nat n <= Z.max 0 num /\ (forall i, (i < n)%nat -> intr i = false) /\ (Z.of_nat n < num -> intr n = true) /\
    Forall (fun q => holds flux j g' (Z.of_nat n) (flux (g_cfg g)) evs (r_format q) (w_fs w' (r_name q))) rs /\
    (forall m, ~ In m (map r_name rs) -> w_fs w' m = w_fs w m).
Proof.
  intros now intr cfg rest w j num rs w' Hh Hp Hc Hj Hpr H. rewrite main_job in H by exact Hh.
  destruct (job C create next flux configure now intr cfg w) as [w0 r] eqn:E. cbn [fst snd] in H. injection H as -> Hr.
  destruct (job_outcomes C create next flux configure _ _ _ _ _ _ _ _ _ Hp Hc Hj Hpr E) as
    [F [(e & _ & -> & _)|(g & n & evs & g' & E1 & E2 & E3 & E4 & E5 & [(e & _ & _ & _ & -> & _)|(-> & G1 & G2)])]];
    [destruct e; discriminate Hr|destruct e; discriminate Hr|].
  exists g, n, evs, g'. split; [exact E1|]. split; [exact E2|]. split; [exact E3|]. split; [lia|]. split; [exact E5|].
  split; [intros; apply G1; lia|]. auto.
Qed.
Print Assumptions C73_done.

(** Status 1: the generator could not be made, and all the files listed have been emptied; or
    an event could not be made, the files hold the events before it, and the JSON files are
    not JSON. *)
Theorem C73_failed : forall now intr cfg rest w j num rs w',
  hd_error cfg <> Some "-"%char -> plan w cfg j num rs -> configure j = Ok tt -> all_floats normal_dbl j ->
  (forall g, create now j = Ok g -> printable C next flux normal_dbl g) ->
  marley now intr (cfg :: rest) w = (w', Ok 1) ->
  (forall m, ~ In m (map r_name rs) -> w_fs w' m = w_fs w m) /\
  ((exists e, create now j = Er e /\ thrown e /\ Forall (fun q => w_fs w' (r_name q) = Some (opened q)) rs) \/
   (exists g n evs g' e, create now j = Ok g /\ produces C next n g = Ok (evs, g') /\ List.length evs = n /\
      Z.of_nat n < num /\ (forall i, (i <= n)%nat -> intr i = false) /\ create_event C next g' = Er e /\ thrown e /\
      Forall (fun q => w_fs w' (r_name q) = Some (unfinished (flux (g_cfg g)) evs q) /\
        (r_format q = FJson -> forall v, load (unfinished (flux (g_cfg g)) evs q) <> Ok v)) rs)).
Proof.
  intros now intr cfg rest w j num rs w' Hh Hp Hc Hj Hpr H. rewrite main_job in H by exact Hh.
  destruct (job C create next flux configure now intr cfg w) as [w0 r] eqn:E. cbn [fst snd] in H. injection H as -> Hr.
  apply status_thrown in Hr as (e0 & -> & Ht).
  destruct (job_outcomes C create next flux configure _ _ _ _ _ _ _ _ _ Hp Hc Hj Hpr E) as
    [F [(e & E1 & E2 & E3)|(g & n & evs & g' & E1 & E2 & E3 & E4 & E5 & [(e & G1 & G2 & G3 & G4 & G5)|(G1 & _)])]];
    [| |discriminate G1]; split; [exact F| |exact F|].
  - left. exists e. injection E2 as ->. auto.
  - right. exists g, n, evs, g', e. injection G4 as ->. split; [exact E1|]. split; [exact E2|]. split; [exact E3|].
    split; [lia|]. split; [|auto]. intros i Hi. destruct (Nat.eq_dec i n) as [-> |Hn]; [exact G2|apply E5; lia].
Qed.
Print Assumptions C73_failed.

(** If the generator can be made and delivers, the status is 0. *)
Lemma produces_before : forall n m g evs g' evs1 g1, produces C next n g = Ok (evs, g') ->
  produces C next m g = Ok (evs1, g1) -> (m < n)%nat -> exists x, create_event C next g1 = Ok x.
Proof.
  induction n as [|n IH]; intros m g evs g' evs1 g1 H1 H2 Hm; [lia|]. cbn [produces] in H1.
  destruct (create_event C next g) as [[ev ga]|] eqn:E; [|discriminate H1]. cbn [bind] in H1.
  destruct (produces C next n ga) as [[l gb]|] eqn:E1; [|discriminate H1].
  destruct m as [|m]; cbn [produces] in H2; [injection H2 as <- <-; eauto|].
  rewrite E in H2. cbn [bind] in H2. destruct (produces C next m ga) as [[l2 gc]|] eqn:E2; [|discriminate H2].
  cbn [bind] in H2. injection H2 as <- <-. eapply IH; [exact E1|exact E2|lia].
Qed.

Theorem C73_succeeds : forall now intr cfg rest w j num rs g x,
  hd_error cfg <> Some "-"%char -> plan w cfg j num rs -> configure j = Ok tt -> all_floats normal_dbl j ->
  printable C next flux normal_dbl g -> create now j = Ok g -> produces C next (Z.to_nat num) g = Ok x ->
  exists w', marley now intr (cfg :: rest) w = (w', Ok 0).
Proof.
  intros now intr cfg rest w j num rs g [evs g'] Hh Hp Hc Hj Hpr Hg Hx. rewrite main_job by exact Hh.
  destruct (job C create next flux configure now intr cfg w) as [w0 r] eqn:E. cbn [fst snd]. exists w0. f_equal.
  assert (Hpr' : forall g0, create now j = Ok g0 -> printable C next flux normal_dbl g0) by (intros g0 E0; rewrite Hg in E0; injection E0 as <-; exact Hpr).
  destruct (job_outcomes C create next flux configure _ _ _ _ _ _ _ _ _ Hp Hc Hj Hpr' E) as
    [F [(e & E1 & _)|(g0 & n & evs0 & g0' & E1 & E2 & E3 & E4 & E5 & [(e & G1 & G2 & G3 & _)|(-> & _)])]]; [congruence| |reflexivity].
  exfalso. rewrite Hg in E1. injection E1 as <-. destruct (produces_before _ _ _ _ _ _ _ Hx E2 G1) as (y & Ey). congruence.
Qed.
Print Assumptions C73_succeeds.

(** Every other exception has status 1: there is no exit status but these, and none at all only
    if what the generator does is undefined. *)
Theorem C73_status : forall now intr cfg rest w j num rs w' r,
  hd_error cfg <> Some "-"%char -> plan w cfg j num rs -> configure j = Ok tt -> all_floats normal_dbl j ->
  (forall g, create now j = Ok g -> printable C next flux normal_dbl g) ->
  marley now intr (cfg :: rest) w = (w', r) ->
  r = Ok 0 \/ r = Ok 1 \/ exists e, r = Er e /\ ~ thrown e /\
    (create now j = Er e \/ exists g n evs g', create now j = Ok g /\ produces C next n g = Ok (evs, g') /\ create_event C next g' = Er e).
Proof.
  intros now intr cfg rest w j num rs w' r Hh Hp Hc Hj Hpr H. rewrite main_job in H by exact Hh.
  destruct (job C create next flux configure now intr cfg w) as [w0 r0] eqn:E. cbn [fst snd] in H. injection H as -> <-.
  assert (HT : forall e, thrown e \/ ~ thrown e).
  { intros []; try (left; split; discriminate); right; intros [A B]; congruence. }
  assert (HU : forall e, ~ thrown e -> (match (Er e : res Z) with Ok _ => Ok 0 | Er Undefined => Er Undefined | Er NoFuel => Er NoFuel | Er _ => Ok 1 end) = Er e).
  { intros [] K; try reflexivity; exfalso; apply K; split; discriminate. }
  destruct (job_outcomes C create next flux configure _ _ _ _ _ _ _ _ _ Hp Hc Hj Hpr E) as
    [F [(e & E1 & -> & _)|(g & n & evs & g' & E1 & E2 & E3 & E4 & E5 & [(e & G1 & G2 & G3 & -> & _)|(-> & _)])]]; [| |auto];
    (destruct (HT e) as [He|He]; [right; left; apply thrown_status; exact He|]); right; right; exists e;
    (split; [apply HU; exact He|]); (split; [exact He|]); [left; exact E1|right; exists g, n, evs, g'; auto].
Qed.
Print Assumptions C73_status.

(** ** Files that are left alone *)

(** Whatever happens, only files that the configuration lists can change. *)
Lemma job_frame : forall now intr cfg w w' r m, job C create next flux configure now intr cfg w = (w', r) ->
  (forall s j, w_fs w cfg = Some s -> load s = Ok j -> ~ listed j m) -> w_fs w' m = w_fs w m.
Proof.
  intros now intr cfg w w' r m H Hl. unfold job in H.
  destruct (w_fs w cfg) as [s|] eqn:E1; cbn [bind] in H; [|injection H as <- _; reflexivity].
  destruct (load s) as [j|] eqn:E2; cbn [bind] in H; [|injection H as <- _; reflexivity].
  destruct (configure j) as [u|]; cbn [bind] in H; [|injection H as <- _; reflexivity].
  destruct (run_settings j) as [[[ex num] i]|] eqn:E3; cbn [bind] in H; [|injection H as <- _; reflexivity].
  specialize (Hl s j eq_refl E2).
  assert (Hex : field j "executable_settings" = Some ex \/ (field j "executable_settings" = None /\ ex = JObj [])).
  { unfold run_settings, get_object in E3. destruct j; try discriminate E3. cbn [field].
    destruct (obj_get (b "executable_settings") l) as [v|]; cbn [bind] in E3.
    - left. f_equal. destruct (get_long _ _ v); [|discriminate E3]. cbn [bind] in E3.
      match type of E3 with (do _ <- ?X; _) = _ => destruct X; [|discriminate E3] end. cbn [bind] in E3. congruence.
    - right. split; [reflexivity|]. destruct (get_long _ _ (JObj [])); [|discriminate E3]. cbn [bind] in E3.
      match type of E3 with (do _ <- ?X; _) = _ => destruct X; [|discriminate E3] end. cbn [bind] in E3. congruence. }
  destruct (open_outputs ex w) as [o w1] eqn:E4. destruct (open_outputs_frame j ex w o w1 Hex E4) as (_ & F1 & F2).
  destruct o as [files|e]; [|injection H as <- _; apply F1; exact Hl].
  destruct (run_files C create next flux now j num intr _) as [ds r0]. injection H as <- _.
  rewrite put_back_other; [apply F1; exact Hl|]. intros K. apply Hl.
  assert (K' : In m (map fst files)).
  { revert K. generalize (map fst files). clear. intros l. revert ds. induction l as [|x l IH]; intros ds K; [destruct K|].
    destruct ds; [destruct K|]. destruct K as [K|K]; [left; exact K|right; eapply IH; exact K]. }
  apply in_map_iff in K' as (nt & <- & Hn). exact (F2 files eq_refl nt Hn).
Qed.

Theorem C73_only_outputs : forall now intr args w w' r m, marley now intr args w = (w', r) ->
  (forall cfg rest s j, args = cfg :: rest -> w_fs w cfg = Some s -> load s = Ok j -> ~ listed j m) ->
  w_fs w' m = w_fs w m.
Proof.
  intros now intr args w w' r m H Hl. destruct args as [|cfg rest]; [injection H as <- _; reflexivity|].
  destruct (hd_error cfg) as [c|] eqn:Eh.
  - destruct (ascii_dec c "-"%char) as [-> |Hc].
    + destruct cfg as [|c cfg]; [discriminate Eh|]. injection Eh as ->.
      rewrite (proj1 (proj2 (C73_command_line now intr w))) in H. injection H as <- _. reflexivity.
    + rewrite main_job in H by congruence. destruct (job C create next flux configure now intr cfg w) as [w0 r0] eqn:E.
      injection H as <- _. eapply job_frame; [exact E|]. intros s j. apply (Hl cfg rest). reflexivity.
  - rewrite main_job in H by congruence. destruct (job C create next flux configure now intr cfg w) as [w0 r0] eqn:E.
    injection H as <- _. eapply job_frame; [exact E|]. intros s j. apply (Hl cfg rest). reflexivity.
Qed.
Print Assumptions C73_only_outputs.

(** A text file listed without "force", or the one written by default, keeps what it holds, as
    long as the user does not answer yes to a question: the run only adds to it. *)
Theorem C73_keeps : forall now intr args w w' r m s,
  marley now intr args w = (w', r) -> w_fs w m = Some s -> never_yes (w_in w) ->
  (forall cfg rest c j l el, args = cfg :: rest -> w_fs w cfg = Some c -> load c = Ok j ->
     setting j "output" = Some (JArr l) -> In el l ->
     (exists v, field el "file" = Some v /\ to_string v = m) -> careful el) ->
  exists q, w_fs w' m = Some (s ++ q).
Proof.
  intros now intr args w w' r m s H Hs Hn Hc.
  assert (HI : w' = w \/ exists cfg rest, args = cfg :: rest /\ w' = fst (job C create next flux configure now intr cfg w)).
  { destruct args as [|cfg rest]; [left; injection H; auto|]. unfold main in H. destruct (command_line (cfg :: rest)) eqn:Ec;
      try (left; injection H; auto; fail). right. exists cfg, rest. split; [reflexivity|]. unfold command_line in Ec.
    destruct (negb _) in Ec.
    - injection Ec as <-. destruct (job C create next flux configure now intr cfg w). injection H as <- _. reflexivity.
    - destruct (_ || _) in Ec; [discriminate Ec|]. destruct (_ || _) in Ec; [discriminate Ec|].
      destruct (bytes_eqb _ _) in Ec; discriminate Ec. }
  assert (H0 : exists q, w_fs w m = Some (s ++ q)) by (exists []; rewrite app_nil_r; exact Hs).
  destruct HI as [-> |(cfg & rest & Ha & ->)]; [exact H0|]. clear H.
  specialize (fun c j l el => Hc cfg rest c j l el Ha).
  destruct (job C create next flux configure now intr cfg w) as [w' r0] eqn:H. cbn [fst]. unfold job in H.
  destruct (w_fs w cfg) as [c|] eqn:E1; cbn [bind] in H; [|injection H as <- _; exact H0].
  destruct (load c) as [j|] eqn:E2; cbn [bind] in H; [|injection H as <- _; exact H0].
  destruct (configure j) as [u|]; cbn [bind] in H; [|injection H as <- _; exact H0].
  destruct (run_settings j) as [[[ex num] i]|] eqn:E3; cbn [bind] in H; [|injection H as <- _; exact H0].
  specialize (fun l el => Hc c j l el eq_refl E2).
  assert (Hex : forall k, setting j k = field ex k).
  { intros k. unfold setting. unfold run_settings, get_object in E3. destruct j; try discriminate E3. cbn [field].
    destruct (obj_get (b "executable_settings") l) as [v|]; cbn [bind] in E3.
    - destruct (get_long _ _ v); [|discriminate E3]. cbn [bind] in E3.
      match type of E3 with (do _ <- ?X; _) = _ => destruct X; [|discriminate E3] end. cbn [bind] in E3. congruence.
    - destruct (get_long _ _ (JObj [])); [|discriminate E3]. cbn [bind] in E3.
      match type of E3 with (do _ <- ?X; _) = _ => destruct X; [|discriminate E3] end. cbn [bind] in E3.
      injection E3 as <- _ _. reflexivity. }
  rewrite Hex in Hc.
  destruct (open_outputs ex w) as [o w1] eqn:E4.
  assert (HO : keeps (w_fs w m) (w_fs w1 m) /\
    (forall fs, o = Ok fs -> forall nt, In nt fs -> fst nt = m -> t_mode (snd nt) <> Resume)).
  { unfold open_outputs in E4.
    assert (HD : forall n fmt md i, fmt <> b "json" -> (let '(o0, w1) := open_output n fmt md false i w in
      match o0 with Er x => (Er x, w1) | Ok f => (Ok [f], w1) end) = (o, w1) ->
      keeps (w_fs w m) (w_fs w1 m) /\
      (forall fs, o = Ok fs -> forall nt, In nt fs -> fst nt = m -> t_mode (snd nt) <> Resume)).
    { clear E4. intros n fmt md i0 Hfm. destruct (open_output _ _ _ _ _ _) as [o1 w2] eqn:E.
      apply open_output_keeps in E as [A1 A2]; [|exact Hn|exact Hfm].
      intros E4. destruct o1 as [f|e]; injection E4 as <- <-; (split; [apply A1|]); [|discriminate].
      intros fs E nt Hi _. injection E as <-. destruct Hi as [<- |[]]. apply A2. reflexivity. }
    unfold has_key in E4. destruct ex as [| | | | | |l]; try (refine (HD _ _ _ _ _ E4); discriminate). cbn [field] in Hc.
    unfold at_key in E4. destruct (obj_get (b "output") l) as [v|]; [|refine (HD _ _ _ _ _ E4); discriminate].
    destruct v as [| | | | |els|]; try (injection E4 as <- <-; split; [apply keeps_refl|discriminate]).
    eapply open_elements_keeps; [exact E4|exact Hn|]. intros el v Hi Hf Hv. apply (Hc els el eq_refl Hi). eauto. }
  destruct HO as [K1 K2]. destruct (K1 s Hs) as (q1 & Hq1).
  destruct o as [files|e]; [|injection H as <- _; exists q1; exact Hq1].
  pose proof (run_files_kept C create next flux now j num intr (map (fun nt => (snd nt, w_fs w1 (fst nt))) files)) as Hk.
  destruct (run_files C create next flux now j num intr _) as [ds r1]. cbn [fst] in Hk. injection H as <- _.
  apply keeps_put; [exists q1; exact Hq1|]. intros d Hd.
  specialize (K2 files eq_refl). revert ds Hk Hd. clear - K2 Hq1.
  induction files as [|nt files IH]; intros ds Hk Hd; [destruct Hd|]. cbn [map] in Hk.
  inversion Hk as [|? d0 ? ds' Hk1 Hk2]; subst. cbn [map combine] in Hd. destruct Hd as [Hd|Hd].
  - injection Hd as Hd1 Hd2. subst d0. unfold kept in Hk1. cbn [fst snd] in Hk1.
    specialize (Hk1 (K2 nt (or_introl eq_refl) Hd1)). rewrite Hd1 in Hk1. destruct (Hk1 _ Hq1) as (q & ->).
    exists (q1 ++ q). rewrite app_assoc. reflexivity.
  - eapply IH; [|exact Hk2|exact Hd]. intros nt0 Hi. apply K2. right. exact Hi.
Qed.
Print Assumptions C73_keeps.

(** What is refused before any file is touched: an unreadable configuration, wrong types in the
    settings, a status interval below one. *)
Theorem C73_refused : forall now intr cfg rest w, hd_error cfg <> Some "-"%char ->
  (w_fs w cfg = None \/
   exists s, w_fs w cfg = Some s /\
     ((exists e, load s = Er e /\ thrown e) \/
      exists j, load s = Ok j /\
        ((exists e, configure j = Er e /\ thrown e) \/
         configure j = Ok tt /\
         ((forall l, j <> JObj l) \/
          (exists v, field j "executable_settings" = Some v /\ forall l, v <> JObj l) \/
          (exists v, setting j "events" = Some v /\ forall z, v <> JInt z) \/
          (exists v, setting j "events" = None /\ setting j "status_update_interval" = Some v /\
             (forall z, v = JInt z -> - 2 ^ 31 <= z < 1)) \/
          (exists v, setting j "events" = None /\ setting j "status_update_interval" = None /\
             setting j "output" = Some v /\ forall l, v <> JArr l))))) ->
  marley now intr (cfg :: rest) w = (w, Ok 1).
Proof.
  intros now intr cfg rest w Hh H. rewrite main_job by exact Hh.
  assert (HE : forall e, thrown e -> job C create next flux configure now intr cfg w = (w, Er e) ->
    (fst (job C create next flux configure now intr cfg w),
     match snd (job C create next flux configure now intr cfg w) with
     | Ok _ => Ok 0 | Er Undefined => Er Undefined | Er NoFuel => Er NoFuel | Er _ => Ok 1 end) = (w, Ok 1)).
  { intros e He ->. cbn [fst snd]. f_equal. apply thrown_status. exact He. }
  assert (Hm : thrown MarleyErr) by (split; discriminate).
  destruct H as [H|(s & H & [(e & H1 & H2)|(j & H1 & [(e & H2 & H3)|(H2 & H3)])])].
  - apply (HE MarleyErr Hm). unfold job. rewrite H. reflexivity.
  - apply (HE e H2). unfold job. rewrite H, H1. reflexivity.
  - apply (HE e H3). unfold job. rewrite H, H1. cbn [bind]. rewrite H2. reflexivity.
  - apply (HE MarleyErr Hm). unfold job. rewrite H, H1. cbn [bind]. rewrite H2. cbn [bind].
    destruct H3 as [H3|[(v & H3 & H4)|[(v & H3 & H4)|[(v & H3 & H4 & H5)|(v & H3 & H4 & H5 & H6)]]]].
    + destruct j; try reflexivity. exfalso. exact (H3 _ eq_refl).
    + destruct j; try discriminate H3. unfold run_settings, get_object. cbn [field] in H3. rewrite H3. cbn [bind].
      destruct v; try reflexivity. exfalso. exact (H4 _ eq_refl).
    + unfold setting in H3. destruct j; try discriminate H3. unfold run_settings, get_object. cbn [field] in H3.
      destruct (obj_get (b "executable_settings") l) as [x|]; [|discriminate H3]. cbn [bind].
      destruct x; try discriminate H3. cbn [field] in H3. unfold get_long, get. rewrite H3.
      destruct v; try reflexivity. exfalso. exact (H4 _ eq_refl).
    + unfold setting in H3, H4. destruct j; try discriminate H4. unfold run_settings, get_object. cbn [field] in H3, H4.
      destruct (obj_get (b "executable_settings") l) as [x|]; [|discriminate H4]. cbn [bind].
      destruct x; try discriminate H4. cbn [field] in H3, H4. unfold get_long, get. rewrite H3. cbn [bind has_key at_key].
      rewrite H4. cbn [bind]. destruct v; try reflexivity. specialize (H5 _ eq_refl). cbn [to_long fst snd negb orb].
      rewrite wrap32_small by lia. destruct (Z.ltb_spec z 1); [reflexivity|lia].
    + unfold setting in H3, H4, H5. destruct j; try discriminate H5. unfold run_settings, get_object. cbn [field] in H3, H4, H5.
      destruct (obj_get (b "executable_settings") l) as [x|]; [|discriminate H5]. cbn [bind].
      destruct x; try discriminate H5. cbn [field] in H3, H4, H5. unfold get_long, get. rewrite H3. cbn [bind has_key].
      rewrite H4. cbn [bind]. unfold open_outputs. cbn [has_key at_key]. rewrite H5.
      destruct v; try reflexivity. exfalso. exact (H6 _ eq_refl).
Qed.
Print Assumptions C73_refused.
End gen.
Print Assumptions C73_command_line.

(** ** The question about overwriting *)

(** The answer is the first line that is y, Y, n or N; without such a line it is no. *)
Theorem C73_prompt : forall v s r, prompt s = (v, r) <->
  exists l u, s = text_of l ++ u /\ Forall (fun t => ~ In nl t /\ ~ yes t /\ ~ no t) l /\
    ((exists t, (if v then yes t else no t) /\ (u = t ++ nl :: r \/ (u = t /\ r = []))) \/
     (v = false /\ r = [] /\ ~ In nl u /\ ~ yes u /\ ~ no u)).
Proof. exact prompt_answer. Qed.
Print Assumptions C73_prompt.

(** ** Typed access to JSON values *)

(** A value of the right type is returned, whatever the default. One of another type is an
    error, with or without a default; so is a missing key without a default. *)
Theorem C73_getters : forall l k,
  (forall z d, obj_get k l = Some (JInt z) -> - 2 ^ 53 <= z <= 2 ^ 53 ->
     get_long k d (JObj l) = Ok z /\ (forall e, get_double k e (JObj l) = Ok (dbl_of_int z))) /\
  (forall x d, obj_get k l = Some (JFlt x) -> get_double k d (JObj l) = Ok x) /\
  (forall v d, obj_get k l = Some (JBool v) -> get_bool k d (JObj l) = Ok v) /\
  (forall s d, obj_get k l = Some (JStr s) -> get_string k d (JObj l) = Ok (escape s)) /\
  (obj_get k l = None -> (forall d, get_long k (Some d) (JObj l) = Ok d) /\ (forall d, get_double k (Some d) (JObj l) = Ok d) /\
     (forall d, get_bool k (Some d) (JObj l) = Ok d) /\ (forall d, get_string k (Some d) (JObj l) = Ok d) /\
     get_long k None (JObj l) = Er MarleyErr /\ get_double k None (JObj l) = Er MarleyErr /\
     get_bool k None (JObj l) = Er MarleyErr /\ get_string k None (JObj l) = Er MarleyErr) /\
  (forall j, obj_get k l = Some j ->
     ((forall z, j <> JInt z) -> forall d, get_long k d (JObj l) = Er MarleyErr) /\
     ((forall z, j <> JInt z) -> (forall x, j <> JFlt x) -> forall d, get_double k d (JObj l) = Er MarleyErr) /\
     ((forall v, j <> JBool v) -> forall d, get_bool k d (JObj l) = Er MarleyErr) /\
     ((forall s, j <> JStr s) -> forall d, get_string k d (JObj l) = Er MarleyErr)).
Proof.
  intros l k. unfold get_long, get_double, get_bool, get_string, get.
  split. { intros z d -> Hz. unfold to_long_or_throw. cbn [to_long fst snd]. split; [apply long_exact; exact Hz|reflexivity]. }
  split. { intros x d ->. reflexivity. }
  split. { intros v d ->. reflexivity. }
  split. { intros s d ->. reflexivity. }
  split. { intros ->. repeat split. }
  intros j ->. repeat split; intros; destruct j; try reflexivity; exfalso;
    match goal with H : forall _, _ <> _ |- _ => exact (H _ eq_refl) end.
Qed.
Print Assumptions C73_getters.

(** Beyond 2^53 the integer returned can be another one, and near the largest long the result
    is undefined; a status interval beyond an int is taken modulo 2^32. *)
Theorem C73_large_refuted :
  get_long (b "n") None (JObj [(b "n", JInt (2 ^ 53 + 1))]) = Ok (2 ^ 53) /\
  get_long (b "n") None (JObj [(b "n", JInt (2 ^ 63 - 1))]) = Er Undefined /\
  exists l, run_settings (JObj [(b "executable_settings", JObj [(b "status_update_interval", JInt (2 ^ 32 + 1))])]) = Ok (l, 1000, 1).
Proof. split; [vm_compute; reflexivity|]. split; [vm_compute; reflexivity|]. eexists. vm_compute. reflexivity. Qed.

(** ** Cases *)

Definition never (n : nat) : bool := false.
Definition fine (j : json) : res unit := Ok tt.
Definition toy_main := main unit toy_create toy_next toy_flux fine.
Definition desk (l : list (string * string)) (ro : list string) (inp : string) : world :=
  mkw (fun n => match find (fun p => bytes_eqb (b (fst p)) n) l with Some p => Some (b (snd p)) | None => None end)
      (fun n => existsb (fun p => bytes_eqb (b p) n) ro) (b inp).

Definition two_files : string :=
  "{ executable_settings: { events: 2, output: [ { file: ""a.txt"", format: ""ascii"", force: true }, { file: ""b.json"", format: ""json"", indent: 2 } ] } }".
Definition two_world : world := desk [("job.js", two_files); ("a.txt", "old"); ("notes", "keep")]%string [] "".
Definition two_requests : list request := [mkr (b "a.txt") FAscii None; mkr (b "b.json") FJson (Some 2%nat)].

Ltac af := lazymatch goal with
  | |- all_floats _ (JObj _) => apply st_obj; [apply sorted_keysb_ok; reflexivity
      | repeat (apply Forall_cons; [apply plain_keyb_ok; reflexivity|]); apply Forall_nil
      | repeat (apply Forall_cons; [cbn [snd]; af|]); apply Forall_nil]
  | |- all_floats _ (JArr _) => apply st_arr; repeat (apply Forall_cons; [af|]); apply Forall_nil
  | |- all_floats _ (JInt _) => apply st_int; split; vm_compute; congruence
  | |- _ => constructor
  end.
Lemma two_plan : exists j, plan two_world (b "job.js") j 2 two_requests /\ all_floats normal_dbl j.
Proof.
  eexists. split; [split|].
  - eexists. split; [reflexivity|vm_compute; reflexivity].
  - eexists. reflexivity.
  - right. eexists. reflexivity.
  - left. split; [reflexivity|lia].
  - left. reflexivity.
  - left. eexists. split; [reflexivity|]. apply Forall2_cons; [|apply Forall2_cons; [|apply Forall2_nil]].
    + split; try reflexivity; [|left; reflexivity|left; reflexivity]. exists "ascii"%string. split; [reflexivity|left; reflexivity].
    + split; try reflexivity; [|left; reflexivity|right; reflexivity|split; [reflexivity|lia]].
      exists "json"%string. split; [reflexivity|right; right; left; reflexivity].
  - apply NoDup_cons; [intros [H|[]]; discriminate H|]. apply NoDup_cons; [intros []|apply NoDup_nil].
  - intros r [<- |[<- |[]]]; reflexivity.
  - af.
Qed.

Lemma toy_printable : forall g, printable unit toy_next toy_flux normal_dbl g.
Proof.
  intros g m. revert g. induction m as [|m IH]; intros g evs g' H; cbn [produces] in H.
  - injection H as <- <-. split; [constructor|]. exact (proj2 (proj2 (proj2 C17_example) 0%nat [] toy_gen eq_refl)).
  - cbn [create_event toy_next bind g_cfg g_rng g_seed] in H.
    destruct (produces unit toy_next m _) as [[l g1]|] eqn:E; [|discriminate H]. cbn [bind] in H.
    injection H as <- <-. apply IH in E as [E1 E2]. split; [constructor; [exact sample_normal|exact E1]|exact E2].
Qed.

Example C73_example : exists j g x, plan two_world (b "job.js") j 2 two_requests /\ all_floats normal_dbl j /\
  printable unit toy_next toy_flux normal_dbl g /\ toy_create 0 j = Ok g /\ produces unit toy_next 2 g = Ok x /\
  hd_error (b "job.js") <> Some "-"%char.
Proof.
  destruct two_plan as (j & P1 & P2). destruct (pl_object _ _ _ _ _ P1) as (l & ->).
  exists (JObj l). do 2 eexists. split; [exact P1|]. split; [exact P2|]. split; [apply toy_printable|].
  split; [reflexivity|]. split; [reflexivity|discriminate].
Qed.

Example C73_example_run : exists w', toy_main 0 never [b "job.js"] two_world = (w', Ok 0) /\
  w_fs w' (b "a.txt") = Some (show_e17 (toy_flux tt) ++ nl :: print_event sample ++ print_event sample) /\
  w_fs w' (b "notes") = Some (b "keep").
Proof.
  destruct two_plan as (j & P1 & P2). destruct (pl_object _ _ _ _ _ P1) as (l & ->).
  destruct (C73_succeeds unit toy_create toy_next toy_flux fine 0 never (b "job.js") [] two_world (JObj l) 2 two_requests
    (mkg tt [3; 4] 0) _ ltac:(discriminate) P1 eq_refl P2 (toy_printable _) eq_refl eq_refl) as (w' & E).
  exists w'. split; [exact E|].
  destruct (C73_done unit toy_create toy_next toy_flux fine 0 never (b "job.js") [] two_world (JObj l) 2 two_requests w'
    ltac:(discriminate) P1 eq_refl P2 (fun g _ => toy_printable g) E) as (g & n & evs & g' & E1 & E2 & E3 & E4 & E5 & E6 & E7 & E8).
  assert (Hn : n = 2%nat). { destruct (Z_lt_le_dec (Z.of_nat n) 2) as [H|H]; [discriminate (E6 H)|lia]. }
  subst n. cbn [toy_create] in E1. injection E1 as <-. rewrite Hn in E2. vm_compute in E2. 
  inversion E7 as [|? ? H1 _]; subst. cbn [r_format r_name holds] in H1.
  split; [|rewrite E8; [reflexivity|intros [K|[K|[]]]; discriminate K]].
  refine (eq_trans H1 _). injection E2 as <- _. reflexivity.
Qed.

(** An event that cannot be made. *)
Definition short_next (c : unit) (r : rng) : res (event * unit * rng) :=
  match r with [3; 4] => Ok (sample, tt, [5; 6]) | _ => Er StdOther end.
Example C73_failed_example : exists w', main unit toy_create short_next toy_flux fine 0 never [b "job.js"] two_world = (w', Ok 1) /\
  w_fs w' (b "a.txt") = Some (show_e17 (toy_flux tt) ++ nl :: print_event sample).
Proof. eexists. split; [vm_compute; reflexivity|vm_compute; reflexivity]. Qed.

(** Files that are asked for again: the answer decides. *)
Definition ask_config : string := "{ executable_settings: { events: 0, output: [ { file: ""a.txt"", format: ""ascii"" } ] } }".
Example C73_keeps_example : forall inp, In inp ["n"; "perhaps"; ""]%string ->
  exists w', toy_main 0 never [b "job.js"] (desk [("job.js", ask_config); ("a.txt", "old")]%string [] inp) = (w', Ok 0) /\
    w_fs w' (b "a.txt") = Some (b "old").
Proof. intros inp [<- |[<- |[<- |[]]]]; (eexists; split; [vm_compute; reflexivity|vm_compute; reflexivity]). Qed.
Example C73_keeps_careful : exists c j l, w_fs (desk [("job.js", ask_config); ("a.txt", "old")]%string [] "n") (b "job.js") = Some c /\
  load c = Ok j /\ setting j "output" = Some (JArr l) /\ Forall careful l /\ l <> [].
Proof.
  do 3 eexists. split; [reflexivity|]. split; [vm_compute; reflexivity|]. split; [reflexivity|].
  split; [|discriminate]. apply Forall_cons; [split; discriminate|apply Forall_nil].
Qed.
Example C73_never_yes : never_yes (b "n") /\ ~ never_yes (b "y").
Proof.
  split.
  - intros p t q E Hy _ _. destruct Hy as [-> | ->]; destruct p as [|? [|]]; discriminate E.
  - intros H. apply (H [] (b "y") []); auto. left. reflexivity.
Qed.
(** A question answered yes empties the file. *)
Example C73_asked : exists w', toy_main 0 never [b "job.js"] (desk [("job.js", ask_config); ("a.txt", "old")]%string []
    (String (ascii_of_nat 120) (String (ascii_of_nat 10) "Y"))) = (w', Ok 0) /\
  w_fs w' (b "a.txt") = Some (show_e17 (toy_flux tt) ++ [nl]).
Proof. eexists. split; [vm_compute; reflexivity|vm_compute; reflexivity]. Qed.

(** A run without settings: 1000 events in events.ascii. *)
Example C73_defaults : exists j, plan (desk [("job.js", "{}")]%string [] "") (b "job.js") j 1000 [mkr (b "events.ascii") FAscii None] /\
  all_floats normal_dbl j.
Proof.
  eexists. split; [split|].
  - eexists. split; [reflexivity|vm_compute; reflexivity].
  - eexists. reflexivity.
  - left. reflexivity.
  - right. split; reflexivity.
  - left. reflexivity.
  - right. split; [reflexivity|]. split; reflexivity.
  - apply NoDup_cons; [intros []|apply NoDup_nil].
  - intros r [<- |[]]. reflexivity.
  - af.
Qed.

Example C73_refused_example :
  toy_main 0 never [b "job.js"] (desk [("job.js", "{ executable_settings: { events: 2.5 } }")]%string [] "")
  = (desk [("job.js", "{ executable_settings: { events: 2.5 } }")]%string [] "", Ok 1).
Proof.
  unfold toy_main. apply C73_refused; [discriminate|]. right. eexists. split; [reflexivity|]. right.
  eexists. split; [vm_compute; reflexivity|]. right. split; [reflexivity|]. right. right. left. eexists.
  split; [reflexivity|]. discriminate.
Qed.

(** But a mistake further on, in the second file of the list, is only seen when the first file
    has been emptied. *)
Theorem C73_late_refuted : exists w w', toy_main 0 never [b "job.js"] w = (w', Ok 1) /\
  w_fs w (b "a.txt") = Some (b "old") /\ w_fs w' (b "a.txt") = Some [].
Proof.
  exists (desk [("job.js", "{ executable_settings: { output: [ { file: ""a.txt"", format: ""ascii"", force: true }, { file: ""b.txt"", format: ""text"" } ] } }");
                ("a.txt", "old")]%string [] "").
  eexists. split; [vm_compute; reflexivity|]. split; vm_compute; reflexivity.
Qed.

(** A file that cannot be written is not reported: the status is 0 and nothing is there. *)
Theorem C73_unwritable_refuted : exists w w', toy_main 0 never [b "job.js"] w = (w', Ok 0) /\
  w_fs w' (b "dir/a.txt") = None /\
  exists s j, w_fs w (b "job.js") = Some s /\ load s = Ok j /\ listed j (b "dir/a.txt") /\ setting j "events" = Some (JInt 3).
Proof.
  exists (desk [("job.js", "{ executable_settings: { events: 3, output: [ { file: ""dir/a.txt"", format: ""ascii"" } ] } }")]%string ["dir/a.txt"%string] "").
  eexists. split; [vm_compute; reflexivity|]. split; [vm_compute; reflexivity|]. do 2 eexists. split; [reflexivity|].
  split; [vm_compute; reflexivity|]. split; [|reflexivity]. eexists _, _. split; [left; reflexivity|]. split; reflexivity.
Qed.

(** A name with a backslash is that of another file, with the backslash doubled. *)
Theorem C73_name_refuted : exists w w' n, toy_main 0 never [b "job.js"] w = (w', Ok 0) /\
  (exists s j el, w_fs w (b "job.js") = Some s /\ load s = Ok j /\ setting j "output" = Some (JArr [el]) /\
     field el "file" = Some (JStr n)) /\ w_fs w' n = None /\ w_fs w' (escape n) <> None.
Proof.
  exists (desk [("job.js", "{ executable_settings: { events: 0, output: [ { file: ""c:\\a.txt"", format: ""ascii"" } ] } }")]%string [] "").
  do 2 eexists. split; [vm_compute; reflexivity|].
  split. { do 3 eexists. split; [reflexivity|]. split; [vm_compute; reflexivity|]. split; reflexivity. }
  split; [reflexivity|discriminate].
Qed.
