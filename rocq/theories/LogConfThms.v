(** Property C71: what the log settings of a job do. *)
From Coq Require Import List ZArith Bool Ascii String Lia.
From Verif Require Import Base Json JsonRtProofs Files ConfigSpec ConfigProofs Logger LoggerThms LogConf.
Import ListNotations.
Open Scope string_scope.
Open Scope list_scope.

(** ** Vocabulary *)

(** Where an element of the list sends messages: standard output, standard error, or a file
    that is overwritten or appended to. *)
Inductive sink := SOut | SErr | SFile (p : bytes) (overwrite : bool).

Definition level_names : list (string * level) :=
  [("error", LError); ("warning", LWarning); ("info", LInfo); ("debug", LDebug); ("disabled", LDisabled)].
Definition names_level (el : json) (lev : level) : Prop :=
  held el "level" = None /\ lev = LInfo \/ exists n, In (n, lev) level_names /\ word el "level" = Some (b n).
Definition says_overwrite (el : json) (ow : bool) : Prop :=
  held el "overwrite" = None /\ ow = false \/ held el "overwrite" = Some (JBool ow).

(** An element of the list, and what it asks for. *)
Definition describes (el : json) (s : sink * level) : Prop :=
  names_level el (snd s) /\
  match fst s with
  | SOut => word el "file" = Some (b "stdout")
  | SErr => word el "file" = Some (b "stderr")
  | SFile p ow => word el "file" = Some p /\ p <> b "stdout" /\ p <> b "stderr" /\ says_overwrite el ow
  end.
Definition openable (d : disk) (s : sink * level) : Prop := match fst s with SFile p _ => d_ok d p = true | _ => True end.

(** The level last asked for a standard stream. *)
Definition last_level (s : sink) (ss : list (sink * level)) (default : option level) : option level :=
  fold_left (fun cur x => match s, fst x with SOut, SOut | SErr, SErr => Some (snd x) | _, _ => cur end) ss default.

(** The file [p] is asked for once. *)
Definition once (p : bytes) (ow : bool) (lev : level) (ss : list (sink * level)) : Prop :=
  exists ss1 ss2, ss = ss1 ++ (SFile p ow, lev) :: ss2 /\ forall ow' lev', ~ In (SFile p ow', lev') (ss1 ++ ss2).
Definition unnamed (p : bytes) (ss : list (sink * level)) : Prop := forall ow lev, ~ In (SFile p ow, lev) ss.

(** Messages, and what is logged of them by a stream with a given setting. *)
Definition messages (ms : list (level * list bytes)) : list lop := flat_map (fun m => message (fst m) (snd m)) ms.
Definition whole (m : level * list bytes) : bytes := heading (fst m) ++ List.concat (snd m) ++ [nl].
Definition logged (keep : level -> bool) (ms : list (level * list bytes)) : bytes := flat_map (fun m => if keep (fst m) then whole m else []) ms.
Definition proper_messages (ms : list (level * list bytes)) : Prop := Forall (fun m => fst m <> LDisabled) ms.
(** Standard output gets information and debugging messages only. *)
Definition to_stdout (w : option level) (lev : level) : bool := admits w lev && (rank lev >? 2)%Z.

(** ** One element *)

Lemma word_spec el k v : held el k = Some v -> word el k = match v with JStr s => Some (escape s) | _ => None end.
Proof. intros H. unfold word. rewrite H. destruct v; reflexivity. Qed.

Lemma log_level_spec el : (exists lev, log_level el = Ok lev /\ names_level el lev) \/ (log_level el = Er MarleyErr /\ forall lev, ~ names_level el lev).
Proof.
  unfold log_level. rewrite has_value. destruct (held el "level") as [v|] eqn:E.
  - rewrite (at_value _ _ _ E). cbn [bind]. cbv zeta. unfold names_level. rewrite E, (word_spec _ _ _ E).
    destruct v; try (right; split; [reflexivity|]; intros lev [[H _]|(n & _ & H)]; discriminate H). cbn [to_string].
    destruct (bytes_eqb (escape s) (b "error")) eqn:E1; [left; exists LError; split; [reflexivity|]; right; exists "error"; apply bytes_eqb_eq in E1; rewrite E1; split; [cbn [level_names In]; tauto|reflexivity]|].
    destruct (bytes_eqb (escape s) (b "warning")) eqn:E2; [left; exists LWarning; split; [reflexivity|]; right; exists "warning"; apply bytes_eqb_eq in E2; rewrite E2; split; [cbn [level_names In]; tauto|reflexivity]|].
    destruct (bytes_eqb (escape s) (b "info")) eqn:E3; [left; exists LInfo; split; [reflexivity|]; right; exists "info"; apply bytes_eqb_eq in E3; rewrite E3; split; [cbn [level_names In]; tauto|reflexivity]|].
    destruct (bytes_eqb (escape s) (b "debug")) eqn:E4; [left; exists LDebug; split; [reflexivity|]; right; exists "debug"; apply bytes_eqb_eq in E4; rewrite E4; split; [cbn [level_names In]; tauto|reflexivity]|].
    destruct (bytes_eqb (escape s) (b "disabled")) eqn:E5; [left; exists LDisabled; split; [reflexivity|]; right; exists "disabled"; apply bytes_eqb_eq in E5; rewrite E5; split; [cbn [level_names In]; tauto|reflexivity]|].
    right. split; [reflexivity|]. intros lev [[H _]|(n & H & H')]; [discriminate H|]. injection H' as H'. rewrite H' in *.
    cbn [level_names In] in H. repeat destruct H as [H|H]; try contradiction; injection H as <- <-; rewrite bytes_eqb_refl in *; discriminate.
  - left. exists LInfo. split; [reflexivity|]. left. auto.
Qed.

Lemma names_level_fun el l1 l2 : names_level el l1 -> names_level el l2 -> l1 = l2.
Proof.
  intros [[H1 ->]|(n1 & H1 & W1)] [[H2 ->]|(n2 & H2 & W2)].
  - reflexivity.
  - unfold word in W2. rewrite H1 in W2. discriminate.
  - unfold word in W1. rewrite H2 in W1. discriminate.
  - rewrite W1 in W2. injection W2 as W. cbn [level_names In] in H1, H2.
    repeat destruct H1 as [H1|H1]; try contradiction; injection H1 as <- <-;
      repeat destruct H2 as [H2|H2]; try contradiction; injection H2 as <- <-; first [reflexivity|discriminate W].
Qed.

Lemma log_overwrite_spec el : (exists ow, log_overwrite el = Ok ow /\ says_overwrite el ow) \/ (log_overwrite el = Er MarleyErr /\ forall ow, ~ says_overwrite el ow).
Proof.
  unfold log_overwrite, says_overwrite. rewrite has_value. destruct (held el "overwrite") as [v|] eqn:E.
  - rewrite (at_value _ _ _ E). cbn [bind]. destruct v; cbn [to_bool]; try (right; split; [reflexivity|]; intros ow [[H _]|H]; discriminate H).
    left. eexists. split; [reflexivity|]. right. reflexivity.
  - left. exists false. split; [reflexivity|]. left. auto.
Qed.

Lemma says_overwrite_fun el o1 o2 : says_overwrite el o1 -> says_overwrite el o2 -> o1 = o2.
Proof. intros [[H1 ->]|H1] [[H2 ->]|H2]; congruence. Qed.

(** What an element asks for is determined by it. *)
Lemma describes_fun el s1 s2 : describes el s1 -> describes el s2 -> s1 = s2.
Proof.
  destruct s1 as [k1 l1], s2 as [k2 l2]. intros [N1 D1] [N2 D2]. cbn [fst snd] in *. rewrite (names_level_fun _ _ _ N1 N2). f_equal.
  destruct k1, k2; try (rewrite D1 in D2; injection D2 as D2; discriminate D2); try reflexivity.
  - destruct D2 as (D2 & NO & NE & _). exfalso. clear - D1 D2 NO NE. congruence.
  - destruct D2 as (D2 & NO & NE & _). exfalso. clear - D1 D2 NO NE. congruence.
  - destruct D1 as (D1 & NO & NE & _). exfalso. clear - D1 D2 NO NE. congruence.
  - destruct D1 as (D1 & NO & NE & _). exfalso. clear - D1 D2 NO NE. congruence.
  - destruct D1 as (D1 & _ & _ & O1). destruct D2 as (D2 & _ & _ & O2). rewrite D1 in D2. injection D2 as ->. rewrite (says_overwrite_fun _ _ _ O1 O2). reflexivity.
Qed.

(** The calls an element stands for, and its effect on the files. *)
Definition add_op (n : Z) (s : sink * level) : lop :=
  match fst s with SOut => OAdd false Cout (snd s) | SErr => OAdd false Cerr (snd s) | SFile _ _ => OAdd true (Other n) (snd s) end.
Definition on_disk (s : sink * level) (d : disk) : disk := match fst s with SFile p ow => open_log p ow d | _ => d end.

Lemma element_good el s g d : describes el s -> openable d s ->
  log_element el g d = (fst (lstep g (add_op (d_next d) s)), on_disk s d, Ok tt).
Proof.
  destruct s as [k lev]. intros [N D] O. unfold openable in O. cbn [fst snd] in *. unfold log_element, on_disk, add_op. cbn [fst snd]. rewrite has_value.
  destruct (log_level_spec el) as [(lev' & EL & NL)|[_ NL]]; [|exfalso; apply (NL _ N)]. rewrite (names_level_fun _ _ _ NL N) in EL.
  assert (H : exists s, held el "file" = Some (JStr s) /\ match k with SOut => escape s = b "stdout" | SErr => escape s = b "stderr" | SFile p _ => escape s = p end).
  { unfold word in D. destruct k; [| |destruct D as [D _]]; destruct (held el "file") as [[]|]; try discriminate D; injection D as D; eexists; split; try reflexivity; exact D. }
  destruct H as (s & HF & HS). rewrite HF, (at_value _ _ _ HF). cbn [negb]. cbv zeta. rewrite EL. destruct k as [| |p ow].
  - rewrite HS, bytes_eqb_refl. reflexivity.
  - rewrite HS. destruct (bytes_eqb (b "stderr") (b "stdout")) eqn:E; [discriminate E|]. rewrite bytes_eqb_refl. reflexivity.
  - rewrite HS. destruct D as (_ & NO & NE & HO).
    destruct (bytes_eqb p (b "stdout")) eqn:E1; [apply bytes_eqb_eq in E1; contradiction|].
    destruct (bytes_eqb p (b "stderr")) eqn:E2; [apply bytes_eqb_eq in E2; contradiction|].
    destruct (log_overwrite_spec el) as [(ow' & EO & SO)|[_ SO]]; [|exfalso; apply (SO _ HO)]. rewrite (says_overwrite_fun _ _ _ SO HO) in EO.
    rewrite EO, O. reflexivity.
Qed.

Lemma element_bad el g d : (forall s, describes el s -> ~ openable d s) -> log_element el g d = (g, d, Er MarleyErr).
Proof.
  intros H. unfold log_element. rewrite has_value. destruct (held el "file") as [v|] eqn:EF; [|reflexivity]. rewrite (at_value _ _ _ EF). cbn [negb].
  destruct v; try reflexivity. cbv zeta. pose proof (word_spec _ _ _ EF) as W. cbv iota in W.
  destruct (log_level_spec el) as [(lev & EL & NL)|[EL _]]; rewrite EL; [|reflexivity].
  destruct (bytes_eqb (escape s) (b "stdout")) eqn:E1.
  { exfalso. apply bytes_eqb_eq in E1. rewrite E1 in W. apply (H (SOut, lev)); [split; assumption|exact I]. }
  destruct (bytes_eqb (escape s) (b "stderr")) eqn:E2.
  { exfalso. apply bytes_eqb_eq in E2. rewrite E2 in W. apply (H (SErr, lev)); [split; assumption|exact I]. }
  destruct (log_overwrite_spec el) as [(ow & EO & SO)|[EO _]]; rewrite EO; [|reflexivity].
  destruct (d_ok d (escape s)) eqn:EK; [|reflexivity]. exfalso. apply (H (SFile (escape s) ow, lev)); [|exact EK].
  split; [exact NL|]. cbn [fst]. split; [exact W|]. repeat split; [intros K; rewrite K, bytes_eqb_refl in E1; discriminate|intros K; rewrite K, bytes_eqb_refl in E2; discriminate|exact SO].
Qed.

(** ** The list *)

Fixpoint add_ops (n : Z) (ss : list (sink * level)) : list lop :=
  match ss with
  | [] => []
  | s :: r => add_op n s :: add_ops (match fst s with SFile _ _ => n + 1 | _ => n end)%Z r
  end.
Definition all_on_disk (ss : list (sink * level)) (d : disk) : disk := fold_left (fun d s => on_disk s d) ss d.

Lemma add_op_runs g n s : lstep g (add_op n s) = (fst (lstep g (add_op n s)), Ok []).
Proof.
  destruct s as [[]]; unfold add_op; cbn [fst snd lstep]; unfold add_stream; destruct (get_stream _ _); cbn [andb sid_eqb orb]; reflexivity.
Qed.

Lemma on_disk_next s d : d_next (on_disk s d) = match fst s with SFile _ _ => d_next d + 1 | _ => d_next d end%Z.
Proof. destruct s as [[]]; reflexivity. Qed.
Lemma openable_on_disk s d x : openable d x <-> openable (on_disk s d) x.
Proof. destruct s as [[]], x as [[]]; reflexivity. Qed.

Lemma elements_good : forall l ss g d, Forall2 describes l ss -> Forall (openable d) ss ->
  exists g', log_elements l g d = (g', all_on_disk ss d, Ok tt) /\ lrun g (add_ops (d_next d) ss) = Ok (g', []).
Proof.
  induction l as [|el l IH]; intros ss g d H O; inversion H as [|? s ? ss' D R]; subst; [exists g; split; reflexivity|]. apply Forall_cons_iff in O as [O1 O2].
  cbn [log_elements add_ops lrun]. rewrite (element_good el s g d D O1). cbv iota. rewrite add_op_runs. rewrite <- (on_disk_next s d).
  destruct (IH ss' (fst (lstep g (add_op (d_next d) s))) (on_disk s d) R) as (g' & E1 & E2).
  { eapply Forall_impl; [|exact O2]. intros x. apply openable_on_disk. }
  exists g'. split; [exact E1|]. rewrite E2. reflexivity.
Qed.

Lemma elements_app l1 l2 : forall g d, log_elements (l1 ++ l2) g d = let '(g', d', o) := log_elements l1 g d in match o with Ok _ => log_elements l2 g' d' | Er x => (g', d', Er x) end.
Proof.
  induction l1 as [|el l1 IH]; intros g d; cbn [app log_elements]; [reflexivity|]. destruct (log_element el g d) as [[g' d'] [u|x]]; [apply IH|reflexivity].
Qed.

(** Every list is good, or has a first bad element. *)
Lemma list_cases : forall l d, (exists ss, Forall2 describes l ss /\ Forall (openable d) ss) \/
  (exists l1 el l2 ss, l = l1 ++ el :: l2 /\ Forall2 describes l1 ss /\ Forall (openable d) ss /\ forall s, describes el s -> ~ openable d s).
Proof.
  induction l as [|el l IH]; intros d; [left; exists []; split; constructor|].
  destruct (log_element el (new_logger true) d) as [[g1 d1] o] eqn:E.
  assert (G : (exists s, describes el s /\ openable d s) \/ (forall s, describes el s -> ~ openable d s)).
  { clear - el d. destruct (log_level_spec el) as [(lev & EL & NL)|[_ NL]]; [|right; intros [k lev] [N _]; exfalso; apply (NL _ N)].
    destruct (word el "file") as [p|] eqn:W.
    - destruct (bytes_eqb p (b "stdout")) eqn:E1; [apply bytes_eqb_eq in E1; subst p; left; exists (SOut, lev); split; [split; assumption|exact I]|].
      destruct (bytes_eqb p (b "stderr")) eqn:E2; [apply bytes_eqb_eq in E2; subst p; left; exists (SErr, lev); split; [split; assumption|exact I]|].
      assert (NO : p <> b "stdout") by (intros ->; rewrite bytes_eqb_refl in E1; discriminate).
      assert (NE : p <> b "stderr") by (intros ->; rewrite bytes_eqb_refl in E2; discriminate).
      destruct (log_overwrite_spec el) as [(ow & EO & SO)|[_ SO]].
      + destruct (d_ok d p) eqn:K; [left; exists (SFile p ow, lev); split; [split; [exact NL|cbn [fst]; auto]|exact K]|].
        right. intros [[]lev'] [_ D]; cbn [fst] in D; [congruence|congruence|]. destruct D as (D & _). unfold openable. cbn [fst]. congruence.
      + right. intros [[]lev'] [_ D]; cbn [fst] in D; [congruence|congruence|]. destruct D as (_ & _ & _ & D). exfalso. apply (SO _ D).
    - right. intros [[]lev'] [_ D]; cbn [fst] in D; [congruence|congruence|]. destruct D as (D & _). congruence. }
  destruct G as [(s & D & O)|B].
  - destruct (IH d) as [(ss & H1 & H2)|(l1 & x & l2 & ss & -> & H1 & H2 & HB)].
    + left. exists (s :: ss). split; constructor; assumption.
    + right. exists (el :: l1), x, l2, (s :: ss). split; [reflexivity|]. split; [constructor; assumption|]. split; [constructor; assumption|exact HB].
  - right. exists [], el, l, []. split; [reflexivity|]. split; [constructor|]. split; [constructor|exact B].
Qed.

(** ** Which settings are accepted *)

Lemma update_array j l : held j "log" = Some (JArr l) -> l <> [] -> forall g d,
  update_logger_settings j g d = log_elements l (enable true (clear_streams g)) (close_all d).
Proof.
  intros H N g d. unfold update_logger_settings. cbv zeta. rewrite has_value, H, (at_value _ _ _ H). cbn [negb]. destruct l; [contradiction|reflexivity].
Qed.

Lemma openable_close d s : openable (close_all d) s <-> openable d s.
Proof. destruct s as [[]]; reflexivity. Qed.
Lemma openable_close_all d ss : Forall (openable (close_all d)) ss <-> Forall (openable d) ss.
Proof. split; apply Forall_impl; intros s; apply openable_close. Qed.

Theorem C71_accepted j g d :
  (snd (update_logger_settings j g d) = Ok tt <->
    held j "log" = None \/ exists l ss, held j "log" = Some (JArr l) /\ Forall2 describes l ss /\ Forall (openable d) ss) /\
  (snd (update_logger_settings j g d) = Ok tt \/ snd (update_logger_settings j g d) = Er MarleyErr).
Proof.
  destruct (held j "log") as [v|] eqn:E.
  - assert (C : (exists l, v = JArr l /\ l <> []) \/ v = JArr [] \/ forall l, v <> JArr l).
    { destruct v as [| | | | | |l]; try (right; right; intros; discriminate). destruct l; [right; left; reflexivity|left; eexists; split; [reflexivity|discriminate]]. }
    destruct C as [(l & -> & N)|[->|N]].
    + rewrite (update_array j l E N). destruct (list_cases l (close_all d)) as [(ss & D & O)|(l1 & el & l2 & ss & -> & D & O & B)].
      * destruct (elements_good l ss (enable true (clear_streams g)) (close_all d) D O) as (g' & -> & _). cbn [snd]. split; [|left; reflexivity].
        split; [intros _|reflexivity]. right. exists l, ss. split; [reflexivity|]. split; [exact D|]. apply openable_close_all. exact O.
      * rewrite elements_app. destruct (elements_good l1 ss (enable true (clear_streams g)) (close_all d) D O) as (g' & -> & _).
        cbn [log_elements]. rewrite element_bad.
        -- cbn [snd]. split; [|right; reflexivity]. split; [discriminate|]. intros [H|(l & ss' & H & D' & O')]; [discriminate|]. injection H as <-.
           apply Forall2_app_inv_l in D' as (s1 & s2 & _ & D2 & ->). inversion D2 as [|? s ? ? DS]; subst. apply Forall_app in O' as [_ O']. apply Forall_cons_iff in O' as [O' _].
           exfalso. apply (B _ DS). apply openable_close. exact O'.
        -- intros s DS O'. apply (B _ DS). clear - O'. revert O'. unfold all_on_disk. generalize (close_all d). induction ss as [|x ss IH]; intros d'; [auto|]. cbn [fold_left]. intros H. apply (openable_on_disk x). apply IH. exact H.
    + unfold update_logger_settings. cbv zeta. rewrite has_value, E, (at_value _ _ _ E). cbn [negb snd]. split; [|left; reflexivity]. split; [|reflexivity].
      intros _. right. exists [], []. split; [reflexivity|]. split; constructor.
    + assert (U : snd (update_logger_settings j g d) = Er MarleyErr).
      { unfold update_logger_settings. cbv zeta. rewrite has_value, E, (at_value _ _ _ E). cbn [negb]. destruct v as [| | | | | |l]; try reflexivity. destruct (N l eq_refl). }
      rewrite U. split; [|right; reflexivity]. split; [discriminate|]. intros [H|(l & ss & H & _)]; [discriminate|]. injection H as H. destruct (N l H).
  - unfold update_logger_settings. cbv zeta. rewrite has_value, E. cbn [negb snd]. split; [|left; reflexivity]. split; [intros _; left; reflexivity|reflexivity].
Qed.
Print Assumptions C71_accepted.

(** ** Histories *)

Lemma lrun_app : forall a c g g1 w1, lrun g a = Ok (g1, w1) -> lrun g (a ++ c) = do (g2, w2) <- lrun g1 c; Ok (g2, w1 ++ w2).
Proof.
  induction a as [|op a IH]; intros c g g1 w1 H; cbn [app lrun] in *.
  - injection H as <- <-. destruct (lrun g c) as [[]|]; reflexivity.
  - destruct (lstep g op) as [g' [w|x]].
    + destruct (lrun g' a) as [[g2 w2]|] eqn:E; [|discriminate H]. cbn [bind] in H. injection H as <- <-. rewrite (IH c g' g2 w2 E).
      destruct (lrun g2 c) as [[]|]; cbn [bind]; [rewrite app_assoc|]; reflexivity.
    + destruct x; try discriminate H; apply IH; exact H.
Qed.

Lemma wanted_message s ops lev ts : wanted s (ops ++ message lev ts) = wanted s ops.
Proof.
  unfold wanted. rewrite fold_left_app. unfold message. cbn [fold_left wanted1]. generalize (fold_left (wanted1 s) ops (match s with Cerr => Some LWarning | Cout => Some LInfo | _ => None end)). intros x.
  rewrite fold_left_app. assert (E : fold_left (wanted1 s) (map OText ts) x = x) by (induction ts as [|t ts IH]; cbn [map fold_left wanted1]; auto). rewrite E. reflexivity.
Qed.
Lemma switched_message on ops lev ts : switched on (ops ++ message lev ts) = switched on ops.
Proof.
  unfold switched. rewrite fold_left_app. unfold message. cbn [fold_left switched1]. rewrite fold_left_app.
  assert (E : fold_left switched1 (map OText ts) (fold_left switched1 ops on) = fold_left switched1 ops on) by (generalize (fold_left switched1 ops on); induction ts as [|t ts IH]; intros x; cbn [map fold_left switched1]; auto).
  rewrite E. reflexivity.
Qed.

(** What several messages leave in a stream other than standard output. *)
Lemma messages_logged on : forall ms ops g w, lrun (new_logger on) ops = Ok (g, w) -> wanted Null ops = None -> proper_messages ms ->
  exists g' w', lrun g (messages ms) = Ok (g', w') /\
    forall s, s <> Cout -> s <> Null -> received s w' = if switched on ops then logged (admits (wanted s ops)) ms else [].
Proof.
  induction ms as [|[lev ts] ms IH]; intros ops g w H N P.
  - exists g, []. split; [reflexivity|]. intros s _ _. destruct (switched on ops); reflexivity.
  - apply Forall_cons_iff in P as [P1 P2]. cbn [fst] in P1. pose proof (C50_defined on ops g w lev ts H P1) as DF. rewrite N in DF. cbn [admits] in DF. rewrite andb_false_r in DF.
    destruct DF as (g1 & w1 & E1). pose proof (lrun_app ops (message lev ts) _ _ _ H) as E2. rewrite E1 in E2. cbn [bind] in E2.
    destruct (IH (ops ++ message lev ts) g1 _ E2) as (g2 & w2 & E3 & R); [rewrite wanted_message; exact N|exact P2|].
    exists g2, (w1 ++ w2). split; [unfold messages in *; cbn [flat_map fst snd]; rewrite (lrun_app _ _ _ _ _ E1), E3; reflexivity|].
    intros s S1 S2. rewrite received_app, (C50_message on ops g w lev ts s g1 w1 H P1 S1 S2 E1), (R s S1 S2), wanted_message, switched_message.
    unfold logged. cbn [flat_map fst]. destruct (switched on ops); [|reflexivity]. cbn [andb]. unfold whole. cbn [fst snd]. reflexivity.
Qed.

(** Standard output, once the last message was not a warning or an error. *)
Definition quiet (g : logger) : Prop := (rank (g_old g) <= 2)%Z -> flag Cout g = false.

Lemma quiet_log lev g : g_on g = true -> lev <> LDisabled -> quiet g -> quiet (fst (log lev g)) /\ (g_old (fst (log lev g)) = lev).
Proof.
  intros ON NL Q. unfold log. assert (EL : level_eqb lev LDisabled = false) by (destruct lev; try reflexivity; contradiction). rewrite EL, ON. cbv zeta. cbn [fst g_old]. split; [|reflexivity].
  unfold quiet. cbn [g_old]. intros HR. unfold flag. cbn [g_streams]. rewrite get_map by reflexivity. unfold quiet, flag in Q.
  destruct (get_stream Cout (g_streams g)) as [o|] eqn:E; cbn [option_map s_on]; [|reflexivity]. unfold stream_on.
  destruct (level_eqb lev (g_old g)) eqn:EQ; cbn [negb].
  - apply Q. unfold level_eqb in EQ. apply Z.eqb_eq in EQ. lia.
  - apply find_some in E. destruct E as [_ E]. rewrite E. unfold level_ge at 2. cbn [rank]. destruct (Z.leb_spec (rank lev) 2); [|lia]. apply andb_false_r.
Qed.

Lemma messages_stdout on : forall ms ops g w, lrun (new_logger on) ops = Ok (g, w) -> wanted Null ops = None -> proper_messages ms -> quiet g ->
  forall g' w', lrun g (messages ms) = Ok (g', w') -> received Cout w' = if switched on ops then logged (to_stdout (wanted Cout ops)) ms else [].
Proof.
  induction ms as [|[lev ts] ms IH]; intros ops g w H N P Q g' w' E.
  - cbn [messages flat_map lrun] in E. injection E as <- <-. destruct (switched on ops); reflexivity.
  - apply Forall_cons_iff in P as [P1 P2]. cbn [fst] in P1. pose proof (C50_defined on ops g w lev ts H P1) as DF. rewrite N in DF. cbn [admits] in DF. rewrite andb_false_r in DF.
    destruct DF as (g1 & w1 & E1). pose proof (lrun_app ops (message lev ts) _ _ _ H) as E2. rewrite E1 in E2. cbn [bind] in E2.
    unfold messages in E. cbn [flat_map fst snd] in E. rewrite (lrun_app _ _ _ _ _ E1) in E. fold (messages ms) in E. destruct (lrun g1 (messages ms)) as [[g2 w2]|] eqn:E3; [|discriminate E]. cbn [bind] in E. injection E as <- <-.
    pose proof (inv_run _ _ _ _ _ _ (inv_new on) H) as HI. cbn [app] in HI.
    assert (NN : Cout <> Null) by discriminate.
    destruct (message_received on ops g lev ts Cout g1 w1 HI P1 NN E1) as [HI1 R1].
    assert (G1 : switched on ops = true -> g1 = fst (log lev g)).
    { intros S. unfold message in E1. cbn [lrun lstep] in E1. destruct (log lev g) as [g0 [w0|x]] eqn:EL; cbn [fst].
      - rewrite texts_run in E1. cbn [bind] in E1. injection E1 as <- _. reflexivity.
      - assert (g0 = g0) by reflexivity. destruct x; try discriminate E1; rewrite texts_run in E1; injection E1 as <- _; reflexivity. }
    rewrite received_app. rewrite (IH (ops ++ message lev ts) g1 _ E2) with (g' := g2) (w' := w2); [|rewrite wanted_message; exact N|exact P2| |exact E3].
    + rewrite wanted_message, switched_message, R1. destruct (switched on ops) eqn:S; [|reflexivity]. cbn [andb]. unfold logged. cbn [flat_map fst]. unfold whole at 1. cbn [fst snd].
      f_equal. destruct (flag_cout _ _ _ HI1) as [F1 F2]. rewrite switched_snoc, (said _ _ _ P1 S), wanted_snoc in F1, F2. cbn [switched1 wanted1] in F1, F2. rewrite S in F1, F2. cbn [andb] in F1, F2.
      unfold to_stdout. destruct (rank lev >? 2)%Z eqn:ER.
      * apply Z.gtb_gt in ER. rewrite (F2 ltac:(lia)), andb_true_r. reflexivity.
      * assert (HR : (rank lev <= 2)%Z) by (rewrite Z.gtb_ltb in ER; apply Z.ltb_ge in ER; exact ER). rewrite andb_false_r.
        assert (ON : g_on g = true) by (rewrite (i_on _ _ _ HI); exact S). destruct (quiet_log lev g ON P1 Q) as [Q1 O1]. rewrite <- (G1 eq_refl) in Q1, O1. rewrite (Q1 ltac:(rewrite O1; exact HR)). reflexivity.
    + destruct (switched on ops) eqn:S.
      * rewrite (G1 eq_refl). apply quiet_log; [rewrite (i_on _ _ _ HI); exact S|exact P1|exact Q].
      * intros _. destruct (flag Cout g1) eqn:F; [|reflexivity]. destruct (flag_cout _ _ _ HI1) as [F1 _]. specialize (F1 F). rewrite switched_snoc in F1. cbn [switched1] in F1. rewrite S in F1. discriminate F1.
Qed.

(** ** The levels the list asks for *)

Lemma wanted_adds_std s k : (s = Cout /\ k = SOut \/ s = Cerr /\ k = SErr) -> forall ss n x, fold_left (wanted1 s) (add_ops n ss) x = last_level k ss x.
Proof.
  intros H ss. unfold last_level. induction ss as [|[c lev] ss IH]; intros n x; [reflexivity|]. cbn [add_ops fold_left]. rewrite IH. f_equal.
  destruct H as [[-> ->]|[-> ->]]; destruct c; reflexivity.
Qed.

Lemma wanted_adds_null : forall ss n, fold_left (wanted1 Null) (add_ops n ss) None = None.
Proof. induction ss as [|[c lev] ss IH]; intros n; [reflexivity|]. cbn [add_ops fold_left]. destruct c; cbn [add_op fst snd wanted1 sid_eqb]; apply IH. Qed.

Lemma wanted_adds_other a : forall ss n x, (a < n)%Z -> fold_left (wanted1 (Other a)) (add_ops n ss) x = x.
Proof.
  induction ss as [|[c lev] ss IH]; intros n x H; [reflexivity|]. cbn [add_ops fold_left]. destruct c; cbn [add_op fst snd wanted1 sid_eqb]; try (apply IH; lia).
  destruct (Z.eqb_spec n a); [lia|]. apply IH. lia.
Qed.

(** The address a file gets. *)
Definition is_file (s : sink * level) : bool := match fst s with SFile _ _ => true | _ => false end.
Definition address (n : Z) (before : list (sink * level)) : Z := (n + Z.of_nat (List.length (filter is_file before)))%Z.

Lemma wanted_adds_file p ow lev ss2 : forall ss1 n x, fold_left (wanted1 (Other (address n ss1))) (add_ops n (ss1 ++ (SFile p ow, lev) :: ss2)) x = Some lev.
Proof.
  unfold address. induction ss1 as [|[c lev'] ss1 IH]; intros n x.
  - cbn [app filter List.length add_ops fold_left]. rewrite Z.add_0_r. cbn [add_op fst snd wanted1 sid_eqb standard andb]. rewrite Z.eqb_refl. apply wanted_adds_other. lia.
  - cbn [app add_ops fold_left filter is_file fst]. destruct c; cbn [add_op fst snd wanted1 sid_eqb List.length]; try apply IH.
    specialize (IH (n + 1)%Z). replace (n + 1 + Z.of_nat (List.length (filter is_file ss1)))%Z with (n + Z.of_nat (S (List.length (filter is_file ss1))))%Z in IH by lia. apply IH.
Qed.

Lemma switched_adds : forall ss n x, fold_left switched1 (add_ops n ss) x = x.
Proof. induction ss as [|[c lev] ss IH]; intros n x; [reflexivity|]. cbn [add_ops fold_left]. rewrite IH. destruct c; reflexivity. Qed.

(** ** The files *)

Lemma set_text_same p t f : set_text p t f p = Some t. Proof. unfold set_text. rewrite bytes_eqb_refl. reflexivity. Qed.
Lemma set_text_other p q t f : p <> q -> set_text p t f q = f q.
Proof. intros H. unfold set_text. destruct (bytes_eqb p q) eqn:E; [|reflexivity]. apply bytes_eqb_eq in E. contradiction. Qed.

Definition static (o : ofile) : Z * bytes * bool := (o_addr o, o_path o, o_app o).

Lemma put_streams_static a t : forall l f, map static (fst (put_streams a t l f)) = map static l.
Proof.
  induction l as [|o l IH]; intros f; [reflexivity|]. cbn [put_streams]. destruct (Z.eqb_spec (o_addr o) a) as [E|E].
  - cbv zeta. destruct (o_app o) eqn:EA; cbn [fst map]; [reflexivity|]. f_equal. unfold static. cbn [o_addr o_path o_app]. rewrite E, EA. reflexivity.
  - specialize (IH f). destruct (put_streams a t l f) as [r' f']. cbn [fst map] in *. rewrite IH. reflexivity.
Qed.

Lemma put_streams_other a t p : forall l f, (forall o, In o l -> o_addr o = a -> o_path o <> p) -> snd (put_streams a t l f) p = f p.
Proof.
  induction l as [|o l IH]; intros f H; [reflexivity|]. cbn [put_streams]. destruct (Z.eqb_spec (o_addr o) a) as [E|E].
  - assert (NP : o_path o <> p) by (apply H; [left; reflexivity|exact E]). cbv zeta. destruct (o_app o); cbn [snd]; apply set_text_other; exact NP.
  - specialize (IH f (fun o' Ho => H o' (or_intror Ho))). destruct (put_streams a t l f) as [r' f']. cbn [snd] in *. exact IH.
Qed.

Lemma splice_end t old : splice (List.length old) t old = old ++ t.
Proof. unfold splice. rewrite firstn_all, Nat.sub_diag. cbn [repeat app]. rewrite skipn_all2 by lia. rewrite app_nil_r. reflexivity. Qed.

(** The stream [a] is the only one of the file [p], and appends or stands at its end. *)
Definition sole (a : Z) (p : bytes) (d : disk) : Prop :=
  exists l1 o l2 t, d_open d = l1 ++ o :: l2 /\ o_addr o = a /\ o_path o = p /\ d_text d p = Some t /\ (o_app o = true \/ o_pos o = List.length t) /\
    forall o', In o' (l1 ++ l2) -> o_addr o' <> a /\ o_path o' <> p.

Lemma put_streams_hit a t o l2 : o_addr o = a -> forall l1 f, (forall o', In o' l1 -> o_addr o' <> a) ->
  put_streams a t (l1 ++ o :: l2) f = let '(l', f') := put_streams a t (o :: l2) f in (l1 ++ l', f').
Proof.
  intros E l1. induction l1 as [|x l1 IH]; intros f H; cbn [app]; [destruct (put_streams a t (o :: l2) f); reflexivity|].
  assert (IHf := IH f (fun o' Ho => H o' (or_intror Ho))). cbn [put_streams] in *. destruct (Z.eqb_spec (o_addr x) a) as [K|_]; [destruct (H x (or_introl eq_refl) K)|].
  rewrite IHf. rewrite E, Z.eqb_refl. cbv zeta. destruct (o_app o); reflexivity.
Qed.

Lemma put1_sole a p d q : sole a p d -> sole a p (put1 d q) /\ d_text (put1 d q) p = Some (content d p ++ if sid_eqb (fst q) (Other a) then snd q else []).
Proof.
  intros (l1 & o & l2 & t & EO & EA & EP & ET & HP & HU). unfold content. rewrite ET. destruct q as [s x]. cbn [fst snd]. unfold put1. cbn [fst snd].
  assert (KEEP : sole a p d) by (exists l1, o, l2, t; auto 8).
  destruct s as [| | |a']; try (split; [exact KEEP|cbn [sid_eqb]; rewrite app_nil_r; exact ET]). cbn [sid_eqb]. destruct (Z.eqb_spec a' a) as [->|NA].
  - rewrite EO. rewrite put_streams_hit; [|exact EA|intros o' Ho; apply HU; apply in_or_app; left; exact Ho]. cbn [put_streams]. rewrite EA, Z.eqb_refl. cbv zeta. rewrite EP, ET.
    destruct (o_app o) eqn:AP.
    + cbn [d_text]. rewrite set_text_same. split; [|reflexivity]. exists l1, o, l2, (t ++ x). cbn [d_open d_text]. rewrite set_text_same. auto 8.
    + destruct HP as [HP|HP]; [discriminate|]. rewrite HP, splice_end. cbn [d_text]. rewrite set_text_same. split; [|reflexivity].
      exists l1, (mkof a p false (List.length t + List.length x)), l2, (t ++ x). cbn [d_open d_text o_addr o_path o_app o_pos]. rewrite set_text_same, app_length. auto 8.
  - pose proof (put_streams_static a' x (d_open d) (d_text d)) as ST. pose proof (put_streams_other a' x p (d_open d) (d_text d)) as OT.
    assert (HO : forall o', In o' (d_open d) -> o_addr o' = a' -> o_path o' <> p).
    { intros o' Ho K. rewrite EO in Ho. apply in_app_or in Ho as [Ho|[<-|Ho]]; [apply HU; apply in_or_app; left; exact Ho|congruence|apply HU; apply in_or_app; right; exact Ho]. }
    specialize (OT HO). destruct (put_streams a' x (d_open d) (d_text d)) as [l' f'] eqn:EPS. cbn [fst snd d_text] in *. rewrite OT, ET, app_nil_r. split; [|reflexivity].
    (* the entry itself does not change *)
    assert (IN : forall l f l' f', put_streams a' x l f = (l', f') -> forall o', o_addr o' <> a' -> In o' l -> In o' l').
    { clear. induction l as [|y l IH]; intros f l' f' E o' N I; [destruct I|]. cbn [put_streams] in E. destruct (Z.eqb_spec (o_addr y) a').
      - destruct I as [->|I]; [contradiction|]. cbv zeta in E. destruct (o_app y); injection E as <- _; right; exact I.
      - destruct (put_streams a' x l f) as [r fr] eqn:ER. injection E as <- _. destruct I as [->|I]; [left; reflexivity|right; eapply IH; eassumption]. }
    assert (HI : In o l') by (apply (IN _ _ _ _ EPS); [congruence|rewrite EO; apply in_or_app; right; left; reflexivity]).
    rewrite EO, map_app in ST. cbn [map] in ST. apply map_eq_app in ST as (m1 & m2 & -> & S1 & S2). destruct m2 as [|o2 m2]; [discriminate S2|]. cbn [map] in S2. injection S2 as S2a S2b S2c S2.
    assert (HV : forall o', In o' (m1 ++ m2) -> o_addr o' <> a /\ o_path o' <> p).
    { intros o' Ho. assert (K : In (static o') (map static (l1 ++ l2))) by (rewrite map_app, <- S1, <- S2, <- map_app; apply in_map; exact Ho).
      apply in_map_iff in K as (y & K & Hy). unfold static in K. injection K as K1 K2 K3. rewrite <- K1, <- K2. apply HU. exact Hy. }
    assert (o2 = o) as ->.
    { apply in_app_or in HI as [HI|[HI|HI]]; [|exact HI|]; exfalso.
      - destruct (HV o (in_or_app _ _ _ (or_introl HI))) as [K _]. congruence.
      - destruct (HV o (in_or_app _ _ _ (or_intror HI))) as [K _]. congruence. }
    exists m1, o, m2, t. cbn [d_open d_text]. rewrite OT. auto 8.
Qed.

Lemma put_sole a p : forall w d, sole a p d -> d_text (put w d) p = Some (content d p ++ received (Other a) w).
Proof.
  intros w. induction w as [|q w IH]; intros d H.
  - unfold put, received. cbn [fold_left filter map List.concat]. rewrite app_nil_r. unfold content. destruct H as (l1 & o & l2 & t & _ & _ & _ & -> & _). reflexivity.
  - destruct (put1_sole a p d q H) as [H1 H2]. unfold put in *. cbn [fold_left]. rewrite (IH _ H1). unfold content at 1. rewrite H2. rewrite <- app_assoc. f_equal. f_equal.
    unfold received. cbn [filter]. destruct (sid_eqb (fst q) (Other a)); reflexivity.
Qed.

Lemma put_unnamed p : forall w d, (forall o, In o (d_open d) -> o_path o <> p) -> d_text (put w d) p = d_text d p.
Proof.
  intros w. induction w as [|[s x] w IH]; intros d H; [reflexivity|]. unfold put in *. cbn [fold_left]. unfold put1 at 2. cbn [fst snd].
  destruct s as [| | |a]; try (apply IH; exact H). pose proof (put_streams_static a x (d_open d) (d_text d)) as ST. pose proof (put_streams_other a x p (d_open d) (d_text d) (fun o Ho _ => H o Ho)) as OT.
  destruct (put_streams a x (d_open d) (d_text d)) as [l' f']. cbn [fst snd] in *. rewrite IH; [exact OT|]. cbn [d_open]. intros o Ho.
  assert (K : In (static o) (map static (d_open d))) by (rewrite <- ST; apply in_map; exact Ho). apply in_map_iff in K as (y & K & Hy). unfold static in K. injection K as _ K _. rewrite <- K. apply H. exact Hy.
Qed.

(** *** The files after the settings were made *)

Lemma disk_path_other p : forall ss d, unnamed p ss -> d_text (all_on_disk ss d) p = d_text d p.
Proof.
  unfold all_on_disk. induction ss as [|[c lev] ss IH]; intros d H; [reflexivity|]. cbn [fold_left]. rewrite IH by (intros ow l K; apply (H ow l); right; exact K).
  destruct c as [| |q ow]; try reflexivity. unfold on_disk, open_log. cbn [fst d_text]. apply set_text_other. intros ->. apply (H ow lev). left. reflexivity.
Qed.

Lemma disk_open : forall ss d, exists l, d_open (all_on_disk ss d) = d_open d ++ l /\
  (forall o, In o l -> (d_next d <= o_addr o < address (d_next d) ss)%Z /\ exists ow lev, In (SFile (o_path o) ow, lev) ss) /\ d_next (all_on_disk ss d) = address (d_next d) ss.
Proof.
  unfold all_on_disk, address. induction ss as [|[c lev] ss IH]; intros d.
  - exists []. rewrite app_nil_r. cbn [fold_left filter List.length]. split; [reflexivity|]. split; [intros o []|lia].
  - cbn [fold_left]. destruct (IH (on_disk (c, lev) d)) as (l & E1 & E2 & E3). rewrite E3. destruct c as [| |q ow]; cbn [on_disk fst] in *; cbn [filter is_file fst] in *.
    + exists l. split; [exact E1|]. split; [|reflexivity]. intros o Ho. destruct (E2 o Ho) as (H1 & ow & lv & H2). split; [exact H1|]. exists ow, lv. right. exact H2.
    + exists l. split; [exact E1|]. split; [|reflexivity]. intros o Ho. destruct (E2 o Ho) as (H1 & ow & lv & H2). split; [exact H1|]. exists ow, lv. right. exact H2.
    + exists (mkof (d_next d) q (negb ow) 0 :: l). split; [rewrite E1; cbn [open_log d_open]; rewrite <- app_assoc; reflexivity|]. cbn [open_log d_next List.length] in *. split; [|lia].
      intros o [<-|Ho]; [cbn [o_addr o_path]; split; [lia|]; exists ow, lev; left; reflexivity|]. destruct (E2 o Ho) as (H1 & ow' & lv & H2). split; [lia|]. exists ow', lv. right. exact H2.
Qed.

Lemma disk_once p ow lev ss1 ss2 d : (forall ow' lev', ~ In (SFile p ow', lev') (ss1 ++ ss2)) -> d_open d = [] ->
  sole (address (d_next d) ss1) p (all_on_disk (ss1 ++ (SFile p ow, lev) :: ss2) d) /\
  content (all_on_disk (ss1 ++ (SFile p ow, lev) :: ss2) d) p = if ow then [] else content d p.
Proof.
  intros HU HE. assert (U1 : unnamed p ss1) by (intros o l K; apply (HU o l); apply in_or_app; left; exact K).
  assert (U2 : unnamed p ss2) by (intros o l K; apply (HU o l); apply in_or_app; right; exact K).
  assert (SPLIT : all_on_disk (ss1 ++ (SFile p ow, lev) :: ss2) d = all_on_disk ss2 (open_log p ow (all_on_disk ss1 d))) by (unfold all_on_disk; rewrite fold_left_app; reflexivity).
  rewrite SPLIT. destruct (disk_open ss1 d) as (m1 & M1 & M2 & M3). rewrite HE in M1. cbn [app] in M1.
  destruct (disk_open ss2 (open_log p ow (all_on_disk ss1 d))) as (m2 & N1 & N2 & _). cbn [open_log d_open d_next] in N1, N2. rewrite M1, M3 in N1. rewrite M3 in N2.
  assert (TX : d_text (all_on_disk ss2 (open_log p ow (all_on_disk ss1 d))) p = Some (if ow then [] else content d p)).
  { rewrite (disk_path_other p ss2 _ U2). cbn [open_log d_text]. rewrite set_text_same. unfold content. rewrite (disk_path_other p ss1 d U1). reflexivity. }
  split; [|unfold content at 1; rewrite TX; reflexivity].
  exists m1, (mkof (address (d_next d) ss1) p (negb ow) 0), m2, (if ow then [] else content d p). rewrite N1, <- app_assoc. cbn [app o_addr o_path o_app o_pos].
  split; [reflexivity|]. split; [reflexivity|]. split; [reflexivity|]. split; [exact TX|]. split; [destruct ow; [right|left]; reflexivity|].
  intros o Ho. apply in_app_or in Ho as [Ho|Ho].
  - destruct (M2 o Ho) as (K & ow' & lv & K'). split; [lia|]. intros EP. rewrite EP in K'. apply (U1 ow' lv K').
  - destruct (N2 o Ho) as (K & ow' & lv & K'). split; [lia|]. intros EP. rewrite EP in K'. apply (U2 ow' lv K').
Qed.

(** ** Theorems on the messages after the settings were made *)

Lemma wanted_app s a c : wanted s (a ++ c) = fold_left (wanted1 s) c (wanted s a).
Proof. unfold wanted. apply fold_left_app. Qed.
Lemma switched_app on a c : switched on (a ++ c) = fold_left switched1 c (switched on a).
Proof. unfold switched. apply fold_left_app. Qed.

(** The state after settings that stand for the calls [cs] in a history. *)
Lemma settings_run on ops g0 w0 cs g : lrun (new_logger on) ops = Ok (g0, w0) -> lrun g0 cs = Ok (g, []) -> lrun (new_logger on) (ops ++ cs) = Ok (g, w0).
Proof. intros H1 H2. rewrite (lrun_app _ _ _ _ _ H1), H2. cbn [bind]. rewrite app_nil_r. reflexivity. Qed.

(** The level of the last message is kept. *)
Definition no_log (op : lop) : Prop := match op with OLog _ => False | _ => True end.
Lemma old_kept : forall cs g g', Forall no_log cs -> forall w, lrun g cs = Ok (g', w) -> g_old g' = g_old g.
Proof.
  induction cs as [|op cs IH]; intros g g' F w H; cbn [lrun] in H; [injection H as <- _; reflexivity|]. apply Forall_cons_iff in F as [F1 F2].
  assert (S : g_old (fst (lstep g op)) = g_old g).
  { destruct op; try contradiction; try reflexivity. cbn [lstep]. unfold add_stream. destruct (get_stream _ _); [reflexivity|]. destruct (_ && _); reflexivity. }
  destruct (lstep g op) as [g1 [w1|x]]; cbn [fst] in S; rewrite <- S.
  - destruct (lrun g1 cs) as [[g2 w2]|] eqn:E; [|discriminate H]. cbn [bind] in H. injection H as <- _. eapply IH; eassumption.
  - destruct x; try discriminate H; eapply IH; eassumption.
Qed.
Lemma no_log_adds : forall ss n, Forall no_log (add_ops n ss).
Proof. induction ss as [|[c lev] ss IH]; intros n; [constructor|]. cbn [add_ops]. constructor; [destruct c; exact I|apply IH]. Qed.

Lemma quiet_after on ops g0 w0 cs g : lrun (new_logger on) ops = Ok (g0, w0) -> lrun g0 cs = Ok (g, []) -> Forall no_log cs ->
  spoken on ops = LInfo \/ spoken on ops = LDebug -> quiet g.
Proof.
  intros H1 H2 F HS HR. exfalso. rewrite (old_kept _ _ _ F _ H2) in HR. pose proof (inv_run _ _ _ _ _ _ (inv_new on) H1) as HI. cbn [app] in HI. rewrite (i_old _ _ _ HI) in HR.
  destruct HS as [K|K]; rewrite K in HR; cbn [rank] in HR; lia.
Qed.

(** In whatever state a list of valid elements finds the logger, afterwards any messages go
    exactly where the list says: standard error gets those admitted by the level last given
    for it (warnings and errors if none was), standard output the information and debugging
    messages admitted by the level last given for it (none if none was), each file listed
    once what its level admits, after what it held before unless it was to be overwritten.
    No other file is touched. *)
Theorem C71_messages on ops g0 w0 d j l ss ms :
  lrun (new_logger on) ops = Ok (g0, w0) -> held j "log" = Some (JArr l) -> l <> [] -> Forall2 describes l ss -> Forall (openable d) ss -> proper_messages ms ->
  exists g d1 g' w, update_logger_settings j g0 d = (g, d1, Ok tt) /\ lrun g (messages ms) = Ok (g', w) /\
    received Cerr w = logged (admits (last_level SErr ss (Some LWarning))) ms /\
    (spoken on ops = LInfo \/ spoken on ops = LDebug -> received Cout w = logged (to_stdout (last_level SOut ss None)) ms) /\
    (forall p ow lev, once p ow lev ss -> d_text (put w d1) p = Some ((if ow then [] else content d p) ++ logged (admits (Some lev)) ms)) /\
    (forall p, unnamed p ss -> d_text (put w d1) p = d_text d p).
Proof.
  intros H HJ HN HD HO HP. pose (cs := OClear :: OEnable true :: add_ops (d_next d) ss).
  destruct (elements_good l ss (enable true (clear_streams g0)) (close_all d) HD (proj2 (openable_close_all d ss) HO)) as (g & EU & ER).
  change (d_next (close_all d)) with (d_next d) in ER.
  assert (EC : lrun g0 cs = Ok (g, [])) by (unfold cs; cbn [lrun lstep]; rewrite ER; reflexivity).
  pose proof (settings_run on ops g0 w0 cs g H EC) as HH.
  assert (SW : switched on (ops ++ cs) = true) by (rewrite switched_app; unfold cs; cbn [fold_left switched1]; apply switched_adds).
  assert (WN : wanted Null (ops ++ cs) = None) by (rewrite wanted_app; unfold cs; cbn [fold_left wanted1]; apply wanted_adds_null).
  destruct (messages_logged on ms (ops ++ cs) g w0 HH WN HP) as (g' & w & EM & RM). rewrite SW in RM.
  exists g, (all_on_disk ss (close_all d)), g', w. split; [rewrite (update_array j l HJ HN); exact EU|]. split; [exact EM|].
  split; [|split; [|split]].
  - rewrite RM by discriminate. rewrite wanted_app. unfold cs. cbn [fold_left wanted1]. rewrite (wanted_adds_std Cerr SErr) by (right; split; reflexivity). reflexivity.
  - intros HS. rewrite (messages_stdout on ms (ops ++ cs) g w0 HH WN HP) with (g' := g') (w' := w); [|eapply quiet_after; [exact H|exact EC| |exact HS]|exact EM].
    + rewrite SW, wanted_app. unfold cs. cbn [fold_left wanted1]. rewrite (wanted_adds_std Cout SOut) by (left; split; reflexivity). reflexivity.
    + unfold cs. constructor; [exact I|]. constructor; [exact I|apply no_log_adds].
  - intros p ow lev (ss1 & ss2 & -> & HU). destruct (disk_once p ow lev ss1 ss2 (close_all d) HU eq_refl) as [S1 S2].
    rewrite (put_sole _ _ w _ S1), S2. f_equal. f_equal. rewrite RM by discriminate. rewrite wanted_app. unfold cs. cbn [fold_left wanted1].
    change (d_next (close_all d)) with (d_next d). rewrite wanted_adds_file. reflexivity.
  - intros p HU. rewrite put_unnamed; [apply (disk_path_other p ss (close_all d) HU)|]. destruct (disk_open ss (close_all d)) as (m & M1 & M2 & _). rewrite M1. cbn [close_all d_open app].
    intros o Ho EP. destruct (M2 o Ho) as (_ & ow & lev & K). rewrite EP in K. apply (HU ow lev K).
Qed.
Print Assumptions C71_messages.

(** Without settings, information goes to standard output, warnings and errors to standard
    error, debugging messages nowhere, and no file is touched. *)
Theorem C71_default on ops g0 w0 d j ms :
  lrun (new_logger on) ops = Ok (g0, w0) -> held j "log" = None -> proper_messages ms ->
  exists g d1 g' w, update_logger_settings j g0 d = (g, d1, Ok tt) /\ lrun g (messages ms) = Ok (g', w) /\
    received Cerr w = logged (fun lev => match lev with LWarning | LError => true | _ => false end) ms /\
    (spoken on ops = LInfo \/ spoken on ops = LDebug -> received Cout w = logged (fun lev => match lev with LInfo => true | _ => false end) ms) /\
    (forall p, d_text (put w d1) p = d_text d p).
Proof.
  intros H HJ HP. pose (cs := [OClear; OAdd false Cout LInfo; OEnable true]).
  pose (g := enable true (fst (add_stream false Cout LInfo (clear_streams g0)))).
  assert (EC : lrun g0 cs = Ok (g, [])).
  { unfold cs, g. cbn [lrun lstep]. pose proof (add_op_runs (clear_streams g0) 0%Z (SOut, LInfo)) as K. cbn [add_op fst snd lstep] in K. rewrite K. reflexivity. }
  pose proof (settings_run on ops g0 w0 cs g H EC) as HH.
  assert (SW : switched on (ops ++ cs) = true) by (rewrite switched_app; reflexivity).
  assert (WN : wanted Null (ops ++ cs) = None) by (rewrite wanted_app; reflexivity).
  destruct (messages_logged on ms (ops ++ cs) g w0 HH WN HP) as (g' & w & EM & RM). rewrite SW in RM.
  exists g, (close_all d), g', w. split; [unfold update_logger_settings; rewrite has_value, HJ; reflexivity|]. split; [exact EM|].
  assert (LG : forall k1 k2, (forall lev, lev <> LDisabled -> k1 lev = k2 lev) -> logged k1 ms = logged k2 ms).
  { intros k1 k2 K. clear - K HP. unfold logged. induction HP as [|m ms Hm _ IH]; [reflexivity|]. cbn [flat_map]. rewrite IH, (K _ Hm). reflexivity. }
  split; [|split].
  - rewrite RM by discriminate. rewrite wanted_app. unfold cs. cbn [fold_left wanted1 sid_eqb]. apply LG. intros [] N; try reflexivity. contradiction.
  - intros HS. rewrite (messages_stdout on ms (ops ++ cs) g w0 HH WN HP) with (g' := g') (w' := w); [|eapply quiet_after; [exact H|exact EC| |exact HS]|exact EM].
    + rewrite SW, wanted_app. unfold cs. cbn [fold_left wanted1 sid_eqb standard andb]. apply LG. intros [] N; reflexivity.
    + unfold cs. repeat constructor.
  - intros p. rewrite (put_unnamed p w (close_all d)) by (intros o []). reflexivity.
Qed.
Print Assumptions C71_default.

(** An empty list switches all logging off. *)
Theorem C71_off on ops g0 w0 d j ms :
  lrun (new_logger on) ops = Ok (g0, w0) -> held j "log" = Some (JArr []) -> proper_messages ms ->
  exists g d1 g' w, update_logger_settings j g0 d = (g, d1, Ok tt) /\ lrun g (messages ms) = Ok (g', w) /\
    (forall s, s <> Null -> received s w = []) /\ (forall p, d_text (put w d1) p = d_text d p).
Proof.
  intros H HJ HP. pose (cs := [OClear; OEnable false]). pose (g := enable false (clear_streams g0)).
  assert (EC : lrun g0 cs = Ok (g, [])) by reflexivity.
  pose proof (settings_run on ops g0 w0 cs g H EC) as HH.
  assert (SW : switched on (ops ++ cs) = false) by (rewrite switched_app; reflexivity).
  assert (WN : wanted Null (ops ++ cs) = None) by (rewrite wanted_app; reflexivity).
  destruct (messages_logged on ms (ops ++ cs) g w0 HH WN HP) as (g' & w & EM & RM). rewrite SW in RM.
  exists g, (close_all d), g', w. split; [unfold update_logger_settings; rewrite has_value, HJ, (at_value _ _ _ HJ); reflexivity|]. split; [exact EM|]. split.
  - intros s N. assert (C : s = Cout \/ s <> Cout) by (destruct s; [left; reflexivity|right; discriminate..]). destruct C as [->|C]; [|exact (RM s C N)].
    rewrite (messages_stdout on ms (ops ++ cs) g w0 HH WN HP) with (g' := g') (w' := w); [rewrite SW; reflexivity|intros _; reflexivity|exact EM].
  - intros p. rewrite (put_unnamed p w (close_all d)) by (intros o []). reflexivity.
Qed.
Print Assumptions C71_off.

(** ** Settings that are refused *)

(** The elements before the first invalid one have taken effect, and none after it. *)
Theorem C71_refused j g d l1 el l2 ss :
  held j "log" = Some (JArr (l1 ++ el :: l2)) -> Forall2 describes l1 ss -> Forall (openable d) ss -> (forall s, describes el s -> ~ openable d s) ->
  exists g1 d1, update_logger_settings j g d = (g1, d1, Er MarleyErr) /\
    (l1 <> [] -> forall j1, held j1 "log" = Some (JArr l1) -> update_logger_settings j1 g d = (g1, d1, Ok tt)) /\
    (l1 = [] -> d_text d1 = d_text d /\ d_open d1 = []).
Proof.
  intros HJ HD HO HB. assert (N : l1 ++ el :: l2 <> []) by (destruct l1; discriminate).
  destruct (elements_good l1 ss (enable true (clear_streams g)) (close_all d) HD (proj2 (openable_close_all d ss) HO)) as (g1 & EU & _).
  exists g1, (all_on_disk ss (close_all d)). split; [|split].
  - rewrite (update_array j _ HJ N), elements_app, EU. cbn [log_elements]. rewrite element_bad; [reflexivity|].
    intros s DS O'. apply (HB _ DS). apply (proj1 (openable_close d s)). clear - O'. revert O'. unfold all_on_disk. generalize (close_all d). induction ss as [|x ss IH]; intros d'; [intros K; exact K|]. cbn [fold_left]. intros K. apply (openable_on_disk x). apply IH. exact K.
  - intros N1 j1 HJ1. rewrite (update_array j1 l1 HJ1 N1). exact EU.
  - intros ->. inversion HD; subst. split; reflexivity.
Qed.
Print Assumptions C71_refused.

(** ** The configuration read from a file *)

Lemma clear_old g : g_old (clear_streams g) = g_old g. Proof. reflexivity. Qed.
Lemma enable_clear on g g' : g_old g = g_old g' -> enable on (clear_streams g) = enable on (clear_streams g').
Proof. intros H. unfold clear_streams, add_stream, enable. cbn [get_stream find g_streams g_on g_old fst andb app map s_id s_level]. rewrite H. reflexivity. Qed.
Lemma enable_add_clear on s lev g g' : g_old g = g_old g' -> enable on (fst (add_stream false s lev (clear_streams g))) = enable on (fst (add_stream false s lev (clear_streams g'))).
Proof.
  intros H. unfold clear_streams, add_stream, enable. cbn [get_stream find g_streams g_on g_old fst andb app s_id]. destruct (sid_eqb Cerr s); cbn [fst map g_streams s_id s_level app update g_on g_old]; [destruct (sid_eqb Cerr s)|]; cbn [map s_id s_level]; rewrite H; reflexivity.
Qed.

(** A job file gives the settings it holds, as if they had been given in memory; one that
    cannot be read leaves the default settings. *)
Theorem C71_job_file text g d :
  (forall t j, text = Some t -> load t = Ok j -> (held j "log" = None \/ exists l, held j "log" = Some (JArr l)) -> config_file text g d = config_object j g d) /\
  ((text = None \/ exists t x, text = Some t /\ load t = Er x) ->
    exists g1 d1 x, config_file text g d = (g1, d1, Er x) /\ forall j, held j "log" = None -> update_logger_settings j g d = (g1, d1, Ok tt)).
Proof.
  assert (DEF : forall j, held j "log" = None -> update_logger_settings j g d = update_logger_settings JNull g d).
  { intros j HJ. unfold update_logger_settings. rewrite has_value, HJ. reflexivity. }
  assert (EU' : update_logger_settings JNull g d = (enable true (fst (add_stream false Cout LInfo (clear_streams g))), close_all d, Ok tt)) by reflexivity.
  unfold config_file. rewrite EU'. cbv iota beta.
  split.
  - intros t j -> HL HJ. cbn [bind]. rewrite HL. unfold config_object, update_logger_settings. cbv zeta. rewrite has_value. destruct HJ as [HJ|[l HJ]]; rewrite HJ; cbn [negb].
    + rewrite (enable_add_clear true Cout LInfo (enable true (fst (add_stream false Cout LInfo (clear_streams g)))) g) by reflexivity. reflexivity.
    + rewrite (at_value _ _ _ HJ). destruct l as [|el l].
      * rewrite (enable_clear false (enable true (fst (add_stream false Cout LInfo (clear_streams g)))) g) by reflexivity. reflexivity.
      * rewrite (enable_clear true (enable true (fst (add_stream false Cout LInfo (clear_streams g)))) g) by reflexivity. reflexivity.
  - intros [->|(t & x & -> & HL)]; cbn [bind]; [|rewrite HL]; (do 3 eexists; split; [reflexivity|intros j HJ; rewrite (DEF j HJ); exact EU']).
Qed.
Print Assumptions C71_job_file.

(** ** Cases *)

Definition case_disk : disk := mkdisk (fun p => negb (bytes_eqb p (b "/no/x"))) (fun p => if bytes_eqb p (b "a.log") then Some (b "old") else None) 7 [].
Definition case_element (kvs : list (string * json)) : json := JObj (map (fun q => (b (fst q), snd q)) kvs).
Definition case_list : list json :=
  [case_element [("file", JStr (b "stdout")); ("level", JStr (b "debug"))];
   case_element [("file", JStr (b "a.log")); ("level", JStr (b "warning"))];
   case_element [("file", JStr (b "stderr")); ("level", JStr (b "error")); ("overwrite", JInt 3)];
   case_element [("file", JStr (b "b.log")); ("overwrite", JBool true)]].
Definition case_sinks : list (sink * level) := [(SOut, LDebug); (SFile (b "a.log") false, LWarning); (SErr, LError); (SFile (b "b.log") true, LInfo)].
Definition case_job (l : list json) : json := case_element [("log", JArr l)].
Definition case_messages : list (level * list bytes) := [(LWarning, [b "w"]); (LInfo, [b "i"; b "j"]); (LDebug, [b "d"])].

Lemma case_describes : Forall2 describes case_list case_sinks.
Proof.
  unfold case_list, case_sinks.
  apply Forall2_cons; [split; [right; exists "debug"; split; [cbn [level_names In]; tauto|reflexivity]|reflexivity]|].
  apply Forall2_cons; [split; [right; exists "warning"; split; [cbn [level_names In]; tauto|reflexivity]|cbn [fst]; split; [reflexivity|]; split; [discriminate|]; split; [discriminate|]; left; split; reflexivity]|].
  apply Forall2_cons; [split; [right; exists "error"; split; [cbn [level_names In]; tauto|reflexivity]|reflexivity]|].
  apply Forall2_cons; [split; [left; split; reflexivity|cbn [fst]; split; [reflexivity|]; split; [discriminate|]; split; [discriminate|]; right; reflexivity]|].
  apply Forall2_nil.
Qed.

Example C71_case : held (case_job case_list) "log" = Some (JArr case_list) /\ Forall (openable case_disk) case_sinks /\ proper_messages case_messages /\
  once (b "a.log") false LWarning case_sinks /\ once (b "b.log") true LInfo case_sinks /\ unnamed (b "c.log") case_sinks /\
  logged (admits (Some LWarning)) case_messages = b "[WARNING]: w" ++ [nl].
Proof.
  split; [reflexivity|]. split; [repeat (apply Forall_cons; [vm_compute; try exact I; reflexivity|]); apply Forall_nil|].
  split; [repeat (apply Forall_cons; [discriminate|]); apply Forall_nil|].
  split; [exists [(SOut, LDebug)], [(SErr, LError); (SFile (b "b.log") true, LInfo)]; split; [reflexivity|]; intros ow lev K; cbn [app In] in K; intuition discriminate|].
  split; [exists [(SOut, LDebug); (SFile (b "a.log") false, LWarning); (SErr, LError)], []; split; [reflexivity|]; intros ow lev K; cbn [app In] in K; intuition discriminate|].
  split; [intros ow lev K; unfold case_sinks in K; cbn [In] in K; intuition discriminate|reflexivity].
Qed.

(** Elements that are refused: no file name, a level that does not exist, a file that cannot
    be opened, and something that is no object. *)
Example C71_refused_case : forall el, In el [case_element [("level", JStr (b "info"))]; case_element [("file", JStr (b "a")); ("level", JStr (b "Info"))]; case_element [("file", JStr (b "/no/x"))]; JInt 1] ->
  forall s, describes el s -> ~ openable case_disk s.
Proof.
  intros el H [k lev] [N D]. cbn [fst snd] in *. cbn [In] in H. repeat destruct H as [<-|H]; try contradiction.
  - destruct k; cbn [fst] in D; try discriminate D. destruct D as [D _]. discriminate D.
  - exfalso. destruct N as [[N _]|(n & N & W)]; [discriminate N|]. cbn [level_names In] in N. repeat destruct N as [N|N]; try contradiction; injection N as <- <-; discriminate W.
  - destruct k; cbn [fst] in D; try discriminate D. destruct D as [D _]. assert (E : p = b "/no/x") by (vm_compute in D; injection D as <-; reflexivity). subst p. unfold openable. cbn [fst]. vm_compute. discriminate.
  - destruct k; cbn [fst] in D; try discriminate D. destruct D as [D _]. discriminate D.
Qed.

(** The file that is opened is not always the one that is named: quotation marks and
    backslashes in the name are preceded by backslashes. *)
Theorem C71_name_refuted : exists name l, l = [case_element [("file", JStr name)]] /\ d_ok case_disk name = true /\
  forall g d1 o, update_logger_settings (case_job l) (new_logger true) case_disk = (g, d1, o) -> d_text d1 name = None /\ exists p, p <> name /\ d_text d1 p = Some [].
Proof.
  exists (b "logs\run"), [case_element [("file", JStr (b "logs\run"))]]. split; [reflexivity|]. split; [reflexivity|]. intros g d1 o H. vm_compute in H. injection H as <- <- <-.
  split; [reflexivity|]. exists (b "logs\\run"). split; [discriminate|reflexivity].
Qed.
Print Assumptions C71_name_refuted.

(** Two elements that both overwrite the same file overwrite each other's messages. *)
Theorem C71_twice_refuted : let el lev := case_element [("file", JStr (b "b.log")); ("level", JStr (b lev)); ("overwrite", JBool true)] in
  exists g d1 g' w, update_logger_settings (case_job [el "info"; el "debug"]) (new_logger true) case_disk = (g, d1, Ok tt) /\
    lrun g (messages [(LDebug, [b "first"]); (LInfo, [b "second"])]) = Ok (g', w) /\
    d_text (put w d1) (b "b.log") = Some (b "second" ++ [nl] ++ b ": first" ++ [nl] ++ b "second" ++ [nl]).
Proof. do 4 eexists. split; [vm_compute; reflexivity|]. split; [vm_compute; reflexivity|]. vm_compute. reflexivity. Qed.
Print Assumptions C71_twice_refuted.

(** If the last message before was a warning, standard output gets warnings too until a
    message of another level comes. *)
Theorem C71_stdout_refuted : exists g0 w0 g d1 g' w, lrun (new_logger true) (message LWarning [b "x"]) = Ok (g0, w0) /\
  update_logger_settings (case_job [case_element [("file", JStr (b "stdout"))]]) g0 case_disk = (g, d1, Ok tt) /\
  lrun g (messages [(LWarning, [b "y"])]) = Ok (g', w) /\ received Cout w = b "[WARNING]: y" ++ [nl].
Proof. do 6 eexists. split; [vm_compute; reflexivity|]. split; [vm_compute; reflexivity|]. split; [vm_compute; reflexivity|reflexivity]. Qed.
Print Assumptions C71_stdout_refuted.
