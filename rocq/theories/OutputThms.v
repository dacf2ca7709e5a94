(** Theorems about output files, runs of the executable and event readers
    (C13 to C20). *)
From Coq Require Import List Ascii String ZArith Bool Lia.
From Coq Require Import Floats.SpecFloat.
From Verif Require Import Base Dbl DigitsProofs DblProofs Json JsonSpec JsonProofs JsonNumProofs
  JsonExpProofs JsonRtProofs JsonExtraProofs Stream StreamProofs Pdg Event EventSpec EventProofs EventJsonProofs
  HepNumProofs HepSpec HepProofs EventThms
  Output OutputSpec OutputProofs OutputLoopProofs OutputReadProofs OutputRunProofs.
Import ListNotations.
Local Open Scope Z_scope.

(** A generator for the examples: the configured part is a counter bound, the
    engine has two words, and every event is the sample event. *)
Definition toy_create (now : Z) (cfg : json) : res (generator unit) :=
  match cfg with JObj _ => Ok (mkg tt [3; 4] now) | _ => Er MarleyErr end.
Definition toy_next (c : unit) (r : rng) : res (event * unit * rng) :=
  Ok (sample, tt, match r with [x; y] => [y; (5 * x + 1) mod 97] | _ => r end).
Definition toy_flux (c : unit) : spec_float := dbl false 15 (-18).
Definition toy_config : json := JObj [(b "energy", JFlt (dbl false 155 (-1)))].
Definition toy_gen : generator unit := mkg tt [7; 8] 5.
Definition toy_session (n : Z) : session unit := mkss 0 (Some 2%nat) [sample] toy_config toy_gen n.

Lemma sample_ok : event_ok fixed_dbl sample.
Proof. ok_tac. Qed.
Lemma sample_normal : event_ok normal_dbl sample.
Proof. ok_tac. Qed.
Lemma toy_config_ok : all_floats normal_dbl toy_config.
Proof.
  apply st_obj; [apply sorted_keysb_ok; reflexivity| |].
  - constructor; [apply plain_keyb_ok; reflexivity|constructor].
  - constructor; [|constructor]. cbn [snd]. apply st_flt. leaf_tac.
Qed.
Lemma toy_savable : forall n, is_long n -> savable toy_flux normal_dbl toy_config toy_gen n.
Proof. intros n Hn. split; [exact toy_config_ok|]. split; [leaf_tac|exact Hn]. Qed.

(** ** C13: a closed JSON file is complete and loadable *)

(** Whatever was on disk before, the closed file is one JSON document, with
    nothing after it; its events are the events written, in order; its generator
    state holds the configuration, the state string, the seed and the count.
    Doubles printed without exponent are recovered exactly, others to one part
    in 2^51. *)
Theorem C13_closed : forall (C : Type) (flux : C -> spec_float) (se : session C) old,
  Forall (event_ok normal_dbl) (ss_events se) ->
  savable flux normal_dbl (ss_config se) (ss_gen se) (ss_count se) ->
  exists s l, fresh_session C flux se old = Ok (Some s) /\
    Forall2 (stores best_dbl) (ss_events se) l /\
    closed_file flux best_num s l (ss_config se) (ss_gen se) (ss_count se).
Proof.
  intros C flux se old Hev Hsv. destruct (events_floats _ _ Hev) as [Hfl Hin].
  destruct (fresh_closed C flux normal_dbl best_num normal_dbl best_num se old class_best class_best Hfl Hsv)
    as (s & l & E1 & E2 & E3).
  exists s, l. split; [exact E1|]. split; [|exact E3].
  eapply stores_rel; [exact numeric_best|exact read_as_best|exact Hin|exact E2].
Qed.
Print Assumptions C13_closed.

Example C13_example : Forall (event_ok normal_dbl) (ss_events (toy_session 1)) /\
  savable toy_flux normal_dbl (ss_config (toy_session 1)) (ss_gen (toy_session 1)) 1.
Proof.
  split; [constructor; [exact sample_normal|constructor]|]. apply toy_savable. split; vm_compute; congruence.
Qed.

(** An event with a double the printer writes but the parser rejects makes the
    whole file unreadable. *)
Theorem C13_large_refuted : exists ev, event_ok finite_dbl ev /\
  exists s e, fresh_session unit toy_flux (mkss 0 None [ev] (JObj []) toy_gen 1) None = Ok (Some s) /\ load s = Er e.
Proof.
  exists (mke (e_init sample) (e_fin sample) (dbl false 1 20) 0 false).
  split; [ok_tac|]. do 2 eexists. split; [vm_compute; reflexivity|]. vm_compute. reflexivity.
Qed.

(** ** C14: resuming keeps the old events *)

(** Any number of sessions on the same file. In the end the file holds the events
    of all of them, in order, and the state passed to the last close; every
    resume reports the count stored before and returns a generator built from
    the stored configuration, with the stored state of the random engine. *)
Theorem C14_sessions : forall (C : Type) (create : Z -> json -> res (generator C)) (flux : C -> spec_float)
    (se : session C) (rest : list (session C)) old,
  Forall (fun se => Forall (event_ok fixed_dbl) (ss_events se) /\
                    savable flux normal_dbl (ss_config se) (ss_gen se) (ss_count se)) (se :: rest) ->
  continuing create best_num se rest ->
  exists s0 gs s l, fresh_session C flux se old = Ok (Some s0) /\
    sessions C create flux rest s0 = Ok (gs, s) /\
    all_returned create best_num se rest gs /\
    Forall2 (stores same_dbl) (flat_map ss_events (se :: rest)) l /\
    (let z := last rest se in closed_file flux best_num s l (ss_config z) (ss_gen z) (ss_count z)).
Proof.
  intros C create flux se rest old Hok Hco.
  assert (HF : Forall (fun se => Forall (fun ev => all_floats fixed_dbl (event_json ev)) (ss_events se) /\
     savable flux normal_dbl (ss_config se) (ss_gen se) (ss_count se)) (se :: rest)).
  { eapply Forall_impl; [|exact Hok]. intros x [H1 H2]. split; [apply events_floats; exact H1|exact H2]. }
  inversion HF as [|? ? [H1 H2] H3]; subst.
  destruct (fresh_closed C flux fixed_dbl same_num normal_dbl best_num se old class_fixed class_best H1 H2)
    as (s0 & l0 & E1 & E2 & E3).
  assert (HA : Forall (all_floats fixed_dbl) (map event_json (ss_events se))) by (rewrite Forall_map; exact H1).
  destruct (sessions_closed C create flux fixed_dbl same_num normal_dbl best_num rest s0 l0 _ se
              stable_fixed class_best HA E2 E3 Hco H3) as (gs & s & l & F1 & F2 & F3 & F4).
  exists s0, gs, s, l. split; [exact E1|]. split; [exact F1|]. split; [exact F2|]. split; [|exact F4].
  apply (stores_rel same_num same_dbl _ _ numeric_same read_as_same).
  - cbn [flat_map]. apply Forall_app. inversion Hok as [|? ? [K1 _] K2]; subst. split; [apply events_floats in K1; tauto|].
    clear - K2. induction K2 as [|x r [H _] _ IH]; [constructor|]. cbn [flat_map]. apply Forall_app.
    split; [apply events_floats in H; tauto|exact IH].
  - cbn [flat_map]. rewrite map_app. exact F3.
Qed.
Print Assumptions C14_sessions.

(** One resume with any doubles below 1e17: each is recovered to one part in
    2^51 per reading. *)
Theorem C14_resume_near : forall (C : Type) (create : Z -> json -> res (generator C)) (flux : C -> spec_float)
    (se se' : session C) s l,
  closed_file flux best_num s l (ss_config se) (ss_gen se) (ss_count se) ->
  Forall (all_floats normal_dbl) l -> continues create best_num se se' ->
  Forall (event_ok normal_dbl) (ss_events se') ->
  savable flux normal_dbl (ss_config se') (ss_gen se') (ss_count se') ->
  exists g n s' l1 l2, resumed_session C create flux se' s = Ok (g, n, Some s') /\
    returned create best_num se se' (g, n) /\
    closed_file flux best_num s' (l1 ++ l2) (ss_config se') (ss_gen se') (ss_count se') /\
    Forall2 (rel_value best_num) l l1 /\ Forall2 (stores best_dbl) (ss_events se') l2.
Proof.
  intros C create flux se se' s l Hcl Hl Hco Hev Hsv. destruct (events_floats _ _ Hev) as [Hfl Hin].
  destruct (resumed_closed C create flux normal_dbl best_num normal_dbl best_num s l se se'
              class_best class_best Hl Hcl Hco Hfl Hsv) as (g & n & s' & l' & E1 & E2 & E3 & E4).
  apply Forall2_app_inv_l in E3 as (l1 & l2 & F1 & F2 & ->).
  exists g, n, s', l1, l2. split; [exact E1|]. split; [exact E2|]. split; [exact E4|]. split; [exact F1|].
  eapply stores_rel; [exact numeric_best|exact read_as_best|exact Hin|exact F2].
Qed.
Print Assumptions C14_resume_near.

Example C14_example :
  let l := [toy_session 2; toy_session 3] in
  Forall (fun se => Forall (event_ok fixed_dbl) (ss_events se) /\
                    savable toy_flux normal_dbl (ss_config se) (ss_gen se) (ss_count se)) (toy_session 1 :: l) /\
  continuing toy_create best_num (toy_session 1) l.
Proof.
  assert (HS : forall n, is_long n -> Forall (event_ok fixed_dbl) (ss_events (toy_session n)) /\
     savable toy_flux normal_dbl (ss_config (toy_session n)) (ss_gen (toy_session n)) (ss_count (toy_session n))).
  { intros n Hn. split; [constructor; [exact sample_ok|constructor]|]. apply toy_savable. exact Hn. }
  assert (HC : forall n m, continues toy_create best_num (toy_session n) (toy_session m)).
  { intros n m. split.
    - split; [discriminate|]. repeat constructor; vm_compute; congruence.
    - intros cfg Hc. inversion Hc; subst. eexists. split; reflexivity. }
  split.
  - repeat (constructor; [apply HS; split; vm_compute; congruence|]). constructor.
  - split; [apply HC|]. split; [apply HC|exact I].
Qed.

(** A small closed file with one event and a given state string. *)
Definition tiny (st : string) : bytes :=
  b "{'events':[{}],'gen_state':{'config':{},'event_count':1,'generator_state_string':'" ++ b st
  ++ b "','seed':'5'}}".
Definition q2 (s : bytes) : bytes := map (fun c => if ceq c "'"%char then dquote else c) s.

(** A state string the engine cannot read is ignored: the resumed run starts from
    a newly seeded engine and nothing is reported. *)
Theorem C14_bad_state_refuted : exists s f', 
  resume unit toy_create 0 s (mkt FJson Resume None false dbl_zero) = (Ok (mkg tt [3; 4] 0, 1, f'), 
     [Trunc; Put (start_json None); Put (b "{}"); Create]) /\
  exists j, load s = Ok j /\ forall gs st, doc_state j = Some gs -> at_key (b "generator_state_string") gs = Ok st ->
    to_string st <> show_rng [3; 4].
Proof.
  exists (q2 (tiny "7 x")). eexists. split; [vm_compute; reflexivity|]. eexists. split; [vm_compute; reflexivity|].
  intros gs st H. injection H as <-. intros H. injection H as <-. discriminate.
Qed.

(** ** C15: a failed resume leaves the file alone *)

Theorem C15_failed : forall (C : Type) (create : Z -> json -> res (generator C)) fmt md force i answer now s f a0 e a,
  md <> b "overwrite" ->
  open_file fmt md force i true answer = Ok (f, a0) -> resume C create now s f = (Er e, a) ->
  apply_acts (a0 ++ a) (Some s) = Some s.
Proof.
  intros C create fmt md force i answer now s f a0 e a Hmd Ho Hr. apply resume_failed in Hr. subst a.
  rewrite app_nil_r. unfold open_file in Ho.
  destruct (parse_settings fmt md) as [[f0 m]|] eqn:E; [|discriminate Ho]. cbn [bind] in Ho.
  assert (Hm : m <> Overwrite).
  { unfold parse_settings in E. destruct (parse_format fmt); [|discriminate E].
    destruct (bytes_eqb md (b "overwrite")) eqn:Eq; [apply bytes_eqb_eq in Eq; congruence|].
    destruct (bytes_eqb md (b "append")); [destruct f1; try discriminate E; injection E as <- <-; discriminate|].
    destruct (bytes_eqb md (b "resume")); [destruct f1; try discriminate E; injection E as <- <-; discriminate|].
    discriminate E. }
  destruct m; [congruence| |]; destruct f0; try discriminate Ho; injection Ho as <- <-; reflexivity.
Qed.
Print Assumptions C15_failed.

(** It does fail on anything that is not a complete document with all the parts. *)
Theorem C15_rejects : forall (C : Type) (create : Z -> json -> res (generator C)) now s f,
  (forall g n f' a, resume C create now s f = (Ok (g, n, f'), a) ->
     t_mode f = Resume /\ t_format f = FJson /\
     exists l gs config st seed,
       load s = Ok (JObj l) /\ obj_get (b "gen_state") l = Some (JObj gs) /\
       obj_get (b "config") gs = Some config /\ obj_get (b "generator_state_string") gs = Some st /\
       obj_get (b "seed") gs = Some seed /\ (exists c, obj_get (b "event_count") gs = Some c /\ to_long c = (n, true)) /\
       exists g0, create now config = Ok g0 /\ g_cfg g = g_cfg g0).
Proof.
  intros C create now s f g n f' a H. unfold resume in H.
  destruct (t_mode f), (t_format f); try discriminate H.
  split; [reflexivity|]. split; [reflexivity|].
  destruct (load s) as [j|] eqn:El; [|discriminate H]. cbn [bind] in H.
  destruct j as [| | | | | |l]; try discriminate H. unfold has_key at 1, at_key at 1 in H.
  destruct (obj_get (b "gen_state") l) as [gs|] eqn:E1; [|discriminate H]. cbn [bind] in H.
  destruct gs as [| | | | | |gs]; try discriminate H. cbn [has_key at_key] in H.
  destruct (obj_get (b "config") gs) as [config|] eqn:E2; [|discriminate H]. cbn [bind negb] in H.
  destruct (obj_get (b "generator_state_string") gs) as [st|] eqn:E3; [|discriminate H]. cbn [bind negb] in H.
  destruct (obj_get (b "seed") gs) as [seed|] eqn:E4; [|discriminate H]. cbn [bind negb] in H.
  destruct (obj_get (b "event_count") gs) as [c|] eqn:E5; [|discriminate H]. cbn [bind negb] in H.
  destruct (to_long c) as [z ok] eqn:E6. cbn [snd fst] in H. destruct ok; [|discriminate H]. cbn [negb] in H.
  destruct (create now config) as [g0|] eqn:E7; [|discriminate H]. cbn [bind] in H. injection H as <- <- <- <-.
  exists l, gs, config, st, seed. repeat (split; [first [reflexivity|assumption]|]).
  split; [exists c; auto|]. exists g0. split; [exact E7|]. unfold set_state. destruct (read_rng _ _) as [[r t]|]; reflexivity.
Qed.
Print Assumptions C15_rejects.

Example C15_example : exists e, 
  resume unit toy_create 0 (b "{}") (mkt FJson Resume None false dbl_zero) = (Er e, []) /\
  resume unit toy_create 0 (b "not json") (mkt FJson Resume None false dbl_zero) = (Er e, []).
Proof. eexists. split; vm_compute; reflexivity. Qed.

(** The executable resumes files one after another and refuses a second one only
    after the first has been truncated and rewritten without an end. *)
Theorem C15_two_files_refuted : exists s fs g n f' a p,
  fs = [(mkt FJson Resume None false dbl_zero, Some s); (mkt FJson Resume None false dbl_zero, Some s)] /\
  resume_all unit toy_create 0 fs None = Er MarleyErr /\
  resume unit toy_create 0 s (mkt FJson Resume None false dbl_zero) = (Ok (g, n, f'), a) /\
  apply_acts a (Some s) = Some p /\ (exists j, load s = Ok j) /\ exists e, load p = Er e.
Proof.
  exists (q2 (tiny "7 8")). do 6 eexists. split; [reflexivity|]. split; [vm_compute; reflexivity|].
  split; [vm_compute; reflexivity|]. split; [vm_compute; reflexivity|]. split; eexists; vm_compute; reflexivity.
Qed.

(** ** C16: a file not yet closed never loads *)

(** A crash at any point of a fresh session: the file is untouched, or what is
    there does not load, or the session was complete. *)
Theorem C16_fresh : forall (C : Type) (flux : C -> spec_float) (se : session C) ex old a l',
  Forall (event_ok normal_dbl) (ss_events se) ->
  savable flux normal_dbl (ss_config se) (ss_gen se) (ss_count se) ->
  fresh_acts C flux se ex = Ok a -> crash a l' ->
  apply_acts l' old = old \/
  exists p, apply_acts l' old = Some p /\ ((forall w, load p <> Ok w) \/ apply_acts a old = Some p).
Proof.
  intros C flux se ex old a l' Hev Hsv Ha Hc. destruct (events_floats _ _ Hev) as [Hfl _].
  exact (crash_fresh C flux normal_dbl best_num normal_dbl best_num se old ex a l' class_best class_best Hfl Hsv Ha Hc).
Qed.
Print Assumptions C16_fresh.

(** The same for a resumed session. *)
Theorem C16_resumed : forall (C : Type) (create : Z -> json -> res (generator C)) (flux : C -> spec_float)
    (se se' : session C) s l g n a l',
  closed_file flux best_num s l (ss_config se) (ss_gen se) (ss_count se) ->
  Forall (all_floats normal_dbl) l -> continues create best_num se se' ->
  Forall (event_ok normal_dbl) (ss_events se') ->
  savable flux normal_dbl (ss_config se') (ss_gen se') (ss_count se') ->
  resumed_acts C create flux se' s = Ok (g, n, a) -> crash a l' ->
  apply_acts l' (Some s) = Some s \/
  exists p, apply_acts l' (Some s) = Some p /\ ((forall w, load p <> Ok w) \/ apply_acts a (Some s) = Some p).
Proof.
  intros C create flux se se' s l g n a l' Hcl Hl Hco Hev Hsv Ha Hc. destruct (events_floats _ _ Hev) as [Hfl _].
  exact (crash_resumed C create flux normal_dbl best_num normal_dbl best_num s l se se' g n a l'
           class_best class_best Hl Hcl Hco Hfl Hsv Ha Hc).
Qed.
Print Assumptions C16_resumed.

(** In every resumed session there is a moment when the file is empty. *)
Theorem C16_resume_loses : forall (C : Type) (create : Z -> json -> res (generator C)) (flux : C -> spec_float)
    (se : session C) s g n a, resumed_acts C create flux se s = Ok (g, n, a) ->
  exists l', crash a l' /\ apply_acts l' (Some s) = Some [].
Proof. exact crash_loses. Qed.
Print Assumptions C16_resume_loses.

Example C16_example : exists a, fresh_acts unit toy_flux (toy_session 1) true = Ok a /\
  crash a [Trunc; Put (b "{")] .
Proof. eexists. split; [reflexivity|]. apply cr_next. eapply cr_put. reflexivity. Qed.

(** ** C17: the event count matches the events *)

(** A run with fresh files only. The number of events is the number the executable
    reports and stores; it never exceeds the request; it is smaller only if the
    run was interrupted, and then the first interruption seen ended it. Every
    file holds the same events in order. *)
Theorem C17_fresh : forall (C : Type) (create : Z -> json -> res (generator C))
    (next : C -> rng -> res (event * C * rng)) (flux : C -> spec_float) now config num intr fs n g' ds,
  Forall fresh_file fs -> is_long num -> 0 <= num -> all_floats normal_dbl config ->
  (forall g, create now config = Ok g -> printable C next flux normal_dbl g) ->
  run C create next flux now config num intr fs = Ok (n, g', ds) ->
  exists g evs, create now config = Ok g /\ produces C next (Z.to_nat n) g = Ok (evs, g') /\
    0 <= n <= num /\ len evs = n /\
    (forall j, Z.of_nat j < n -> intr j = false) /\ (n < num -> intr (Z.to_nat n) = true) /\
    Forall2 (fun fd d => holds flux config g' n (flux (g_cfg g)) evs (t_format (fst fd)) d) fs ds.
Proof. exact run_fresh. Qed.
Print Assumptions C17_fresh.

(** A run that resumes one file, with fresh files before and after it. The
    resumed file ends with the old events and the new ones, and its count is the
    old count plus the number of new events; the fresh files receive the same new
    events. *)
Theorem C17_resumed : forall (C : Type) (create : Z -> json -> res (generator C))
    (next : C -> rng -> res (event * C * rng)) (flux : C -> spec_float)
    now config num intr pre post f s l config0 g0 k n g' ds,
  Forall fresh_file pre -> Forall fresh_file post -> is_long num -> k <= num -> 0 <= k ->
  all_floats normal_dbl config ->
  closed_file flux best_num s l config0 g0 k -> Forall (all_floats normal_dbl) l -> rng_ok (g_rng g0) ->
  (forall cfg, rel_value best_num config0 cfg -> exists g1, create now cfg = Ok g1 /\
     List.length (g_rng g1) = List.length (g_rng g0) /\
     printable C next flux normal_dbl (mkg (g_cfg g1) (g_rng g0) (g_seed g1))) ->
  t_mode f = Resume -> t_format f = FJson ->
  run C create next flux now config num intr (pre ++ (f, Some s) :: post) = Ok (n, g', ds) ->
  exists cfg g1 evs m dpre s' l' dpost, rel_value best_num config0 cfg /\ create now cfg = Ok g1 /\
    produces C next m (mkg (g_cfg g1) (g_rng g0) (g_seed g1)) = Ok (evs, g') /\ List.length evs = m /\
    n = k + Z.of_nat m /\ n <= num /\
    (forall j, (j < m)%nat -> intr j = false) /\ (n < num -> intr m = true) /\
    ds = dpre ++ Some s' :: dpost /\
    closed_file flux best_num s' l' config g' n /\
    Forall2 (rel_value best_num) (l ++ map event_json evs) l' /\
    Forall2 (fun fd d => holds flux config g' n (flux (g_cfg g1)) evs (t_format (fst fd)) d) pre dpre /\
    Forall2 (fun fd d => holds flux config g' n (flux (g_cfg g1)) evs (t_format (fst fd)) d) post dpost.
Proof. exact run_resumed. Qed.
Print Assumptions C17_resumed.

(** So if the count matched before, it matches after, whatever the interruptions. *)
Theorem C17_count : forall (C : Type) (create : Z -> json -> res (generator C))
    (next : C -> rng -> res (event * C * rng)) (flux : C -> spec_float)
    now config num intr f s l config0 g0 n g' ds,
  is_long num -> len l <= num -> all_floats normal_dbl config ->
  closed_file flux best_num s l config0 g0 (len l) -> Forall (all_floats normal_dbl) l -> rng_ok (g_rng g0) ->
  (forall cfg, rel_value best_num config0 cfg -> exists g1, create now cfg = Ok g1 /\
     List.length (g_rng g1) = List.length (g_rng g0) /\
     printable C next flux normal_dbl (mkg (g_cfg g1) (g_rng g0) (g_seed g1))) ->
  t_mode f = Resume -> t_format f = FJson ->
  run C create next flux now config num intr [(f, Some s)] = Ok (n, g', ds) ->
  exists s' l', ds = [Some s'] /\ closed_file flux best_num s' l' config g' (len l').
Proof.
  intros C create next flux now config num intr f s l config0 g0 n g' ds H1 H2 H3 H4 H5 H6 H7 H8 H9 H10.
  assert (Hl : 0 <= len l) by (unfold len; lia).
  destruct (run_resumed C create next flux now config num intr [] [] f s l config0 g0 (len l) n g' ds
              (Forall_nil _) (Forall_nil _) H1 H2 Hl H3 H4 H5 H6 H7 H8 H9 H10)
    as (cfg & g1 & evs & m & dpre & s' & l' & dpost & _ & _ & _ & E1 & E2 & _ & _ & _ & E3 & E4 & E5 & E6 & E7).
  inversion E6; subst. inversion E7; subst. exists s', l'. split; [reflexivity|].
  replace (len l') with (len l + Z.of_nat (List.length evs)); [exact E4|].
  assert (E8 : List.length (l ++ map event_json evs) = List.length l') by
    (clear - E5; induction E5; [reflexivity|cbn [List.length]; congruence]).
  rewrite app_length, map_length in E8. unfold len. lia.
Qed.
Print Assumptions C17_count.

Example C17_example : fresh_file (mkt FJson Overwrite None false dbl_zero, Some (start_json None)) /\
  fresh_file (mkt FAscii Overwrite None false dbl_zero, Some []) /\
  printable unit toy_next toy_flux normal_dbl toy_gen.
Proof.
  split; [|split].
  - exists (b "json"), true, None, None, true. eexists. split; [reflexivity|]. split; [reflexivity|].
    split; [discriminate|reflexivity].
  - exists (b "ascii"), true, None, (Some (b "old")), true. eexists. split; [reflexivity|]. split; [reflexivity|].
    split; [discriminate|reflexivity].
  - assert (H : forall m g evs g', produces unit toy_next m g = Ok (evs, g') ->
      Forall (event_ok normal_dbl) evs /\ normal_dbl (toy_flux (g_cfg g'))).
    { induction m as [|m IH]; intros g evs g' H; cbn [produces] in H.
      - injection H as <- <-. split; [constructor|leaf_tac].
      - cbn [create_event toy_next bind g_cfg g_rng g_seed] in H.
        destruct (produces unit toy_next m _) as [[l g1]|] eqn:E; [|discriminate H]. cbn [bind] in H.
        injection H as <- <-. apply IH in E as [E1 E2]. split; [constructor; [exact sample_normal|exact E1]|exact E2]. }
    intros m evs g'. apply H.
Qed.

(** But a fresh JSON file written beside a resumed one stores a count that
    includes the old events it does not hold. *)
Theorem C17_secondary_refuted : exists fs n g d1 d2 j gs,
  run unit toy_create toy_next toy_flux 0 (JObj []) 1 (fun _ => false) fs = Ok (n, g, [Some d1; Some d2]) /\
  load d2 = Ok j /\ doc_events j = Some [] /\ doc_state j = Some gs /\ at_key (b "event_count") gs = Ok (JInt 1).
Proof.
  exists [(mkt FJson Resume None false dbl_zero, Some (q2 (tiny "7 8")));
          (mkt FJson Overwrite None false dbl_zero, Some (start_json None))].
  do 6 eexists. split; [vm_compute; reflexivity|]. split; [vm_compute; reflexivity|].
  split; [reflexivity|]. split; reflexivity.
Qed.

(** ** C18: interrupting and resuming gives the same events *)

(** However a run of [N] events is split, by interruptions at any moment, into a
    first run and any number of resumed ones, the file after the last one holds the
    first [N] events of the generator the first run created, and the state of the
    random engine after them. *)
Theorem C18_chain : forall (C : Type) (create : Z -> json -> res (generator C))
    (next : C -> rng -> res (event * C * rng)) (flux : C -> spec_float) config c0 size,
  stateless C create next flux config c0 size ->
  forall N j rest old, is_long N -> 0 <= N -> Forall (fun j => j_num j = N) (j :: rest) ->
  (forall i, j_intr (last rest j) i = false) ->
  exists g0 n1 g1 s1 s evs g' gs l, create (j_now j) config = Ok g0 /\
    first_run C create next flux config j old = Ok (n1, g1, s1) /\
    resumed_runs C create next flux config rest s1 = Ok s /\
    produces C next (Z.to_nat N) g0 = Ok (evs, g') /\
    closed_file flux best_num s l config gs N /\ g_rng gs = g_rng g' /\
    Forall2 (stores same_dbl) evs l.
Proof.
  intros C create next flux config c0 size Hst N j rest old Hl H0 HN Hi.
  inversion HN as [|? ? N1 N2]; subst.
  destruct (first_inv C create next flux config c0 size Hst j old Hl H0)
    as (g0 & k & g1 & s1 & E1 & E2 & E3 & E4 & E5 & E6).
  destruct (runs_inv C create next flux config c0 size Hst rest g0 k s1 (j_num j) E2 Hl E5 N2 E4)
    as (k' & s & F1 & F2 & F3 & F4).
  assert (Hk : Z.of_nat k' = j_num j).
  { destruct rest as [|j2 rest].
    - cbn [resumed_runs] in F1. injection F1 as <-. specialize (E6 Hi).
      destruct E4 as (x1 & x2 & x3 & x4 & _ & _ & _ & _ & _ & _ & (_ & gA & LA & cA & xA & -> & _) & _).
      destruct F2 as (y1 & y2 & y3 & y4 & _ & _ & _ & _ & _ & _ & (_ & gB & LB & cB & xB & -> & _) & _).
      rewrite LA in LB. injection LB as _ _ Hkk. lia.
    - apply F4; [discriminate|]. intros i. rewrite <- (Hi i).
      assert (HL : forall (A : Type) (r : list A) x y z, last (x :: r) y = last (x :: r) z).
      { intros A r. induction r as [|w r IH]; intros x y z; [reflexivity|]. apply (IH w). }
      rewrite (HL _ rest j2 _ j). reflexivity. }
  destruct (chain_stores C next flux config c0 size g0 k' s F2) as (evs & g' & gs & l & G1 & G2 & G3 & G4).
  exists g0, (Z.of_nat k), g1, s1, s, evs, g', gs, l. rewrite <- Hk, Nat2Z.id. 
  repeat (split; [assumption|]). assumption.
Qed.
Print Assumptions C18_chain.

Example C18_example : stateless unit toy_create toy_next toy_flux toy_config tt 2.
Proof.
  split; [|split; [|split]].
  - intros now cfg H. exists (mkg tt [3; 4] now). split.
    + destruct H as [H| ->]; [|reflexivity]. inversion H; subst; reflexivity.
    + split; [reflexivity|]. split; [reflexivity|]. split; [discriminate|].
      repeat constructor; vm_compute; congruence.
  - intros r Hr [_ Hw]. destruct r as [|x [|y [|z r]]]; try discriminate Hr.
    inversion Hw as [|? ? H1 H2]; subst. inversion H2 as [|? ? H3 H4]; subst.
    eexists _, _. split; [reflexivity|]. split; [reflexivity|]. split; [|exact sample_ok].
    split; [discriminate|]. constructor; [exact H3|]. constructor; [|constructor].
    pose proof (Z.mod_pos_bound (5 * x + 1) 97 ltac:(lia)).
    change (2 ^ 64) with 18446744073709551616. lia.
  - exact toy_config_ok.
  - leaf_tac.
Qed.

(** A generator that remembers more than the engine's state, as MARLEY's does when
    it updates its estimate of the maximum of the energy distribution, need not
    continue the same sequence. *)
Theorem C18_hidden_refuted : exists (create : Z -> json -> res (generator bool))
    (next : bool -> rng -> res (event * bool * rng)) (flux : bool -> spec_float) s2 s1 n g n' g',
  first_run bool create next flux (JObj []) (mkj 0 2 (fun _ => false) None) None = Ok (n, g, s2) /\
  (do r <- first_run bool create next flux (JObj []) (mkj 0 2 (fun k => Nat.eqb k 1) None) None;
   let '(_, s) := r in resumed_run bool create next flux (JObj []) (mkj 0 2 (fun _ => false) None) s) = Ok (n', g', s1) /\
  n = n' /\ exists j1 j2, load s1 = Ok j1 /\ load s2 = Ok j2 /\ doc_events j1 <> doc_events j2.
Proof.
  exists (fun (_ : Z) (_ : json) => Ok (mkg false [1] 0)).
  exists (fun (c : bool) (r : rng) => Ok (mke [] [] dbl_zero (if c then 2 else 0) true, true, r)).
  exists (fun _ : bool => dbl_zero). do 6 eexists.
  split; [vm_compute; reflexivity|]. split; [vm_compute; reflexivity|]. split; [reflexivity|].
  do 2 eexists. split; [vm_compute; reflexivity|]. split; [vm_compute; reflexivity|]. discriminate.
Qed.

(** ** C19: the reader yields each event exactly once *)

(** ASCII: exactly as many events as were written, bit for bit; afterwards false
    and an empty event, however often it is called. *)
Theorem C19_ascii : forall x evs k, finite_dbl x -> Forall good_event evs -> evs <> [] ->
  exists r r', open_reader (show_e17 x ++ nl :: events_text evs) = Ok r /\ reader_flux r = x /\
    calls (List.length evs + S k) r = Ok (map (pair true) evs ++ repeat (false, empty_event) (S k), r').
Proof. exact reader_ascii. Qed.
Print Assumptions C19_ascii.

(** JSON: any closed file whose array holds events. After the end, false and an
    empty event once; a further call reads past the end of the array. *)
Theorem C19_json : forall (C : Type) (flux : C -> spec_float) s l config g n evs,
  closed_file flux best_num s l config g n -> Forall2 (stores best_dbl) evs l ->
  exists r evs' r', open_reader s = Ok r /\ best_dbl (flux (g_cfg g)) (reader_flux r) /\
    Forall2 (event_rel best_dbl) evs evs' /\
    calls (S (List.length evs)) r = Ok (map (pair true) evs' ++ [(false, empty_event)], r') /\
    next_event r' = Er Undefined.
Proof.
  intros C flux s l config g n evs Hcl Hev.
  exact (reader_json C flux best_num best_dbl s l config g n evs numeric_best read_as_best Hcl Hev).
Qed.
Print Assumptions C19_json.

(** HEPEVT: as for ASCII, up to the rounding of the conversion to GeV. *)
Theorem C19_hepevt : forall x evs k, hep_dbl x -> Forall hep_good evs -> evs <> [] ->
  exists r r' evs', open_reader (flat_map (print_hepevt 0 x) evs) = Ok r /\ near_dbl x (reader_flux r) /\
    Forall2 (event_rel near_dbl) evs evs' /\
    calls (List.length evs + S k) r = Ok (map (pair true) evs' ++ repeat (false, empty_event) (S k), r').
Proof. exact reader_hep. Qed.
Print Assumptions C19_hepevt.

(** These are the files a run leaves: writing in any format and reading back. *)
Theorem C19_run_then_read : forall (C : Type) (flux : C -> spec_float) config g n x evs f d,
  holds flux config g n x evs f d -> x = flux (g_cfg g) -> finite_dbl x -> hep_dbl x ->
  Forall good_event evs -> Forall hep_good evs -> evs <> [] ->
  exists s r evs' r', d = Some s /\ open_reader s = Ok r /\ near_dbl x (reader_flux r) /\
    Forall2 (event_rel near_dbl) evs evs' /\
    calls (S (List.length evs)) r = Ok (map (pair true) evs' ++ [(false, empty_event)], r').
Proof.
  assert (HB : forall x y, best_dbl x y -> near_dbl x y) by (intros x y [H _]; exact H).
  assert (HR : forall x, finite_dbl x -> near_dbl x x).
  { intros x [H1 H2]. apply same_near; [left; reflexivity|]. destruct x; try discriminate H1; exact I. }
  intros C flux config g n x evs f d Hh -> Hx Hhx Hg Hhep Hne. destruct f; cbn [holds] in Hh.
  - contradiction.
  - subst d. destruct (reader_hep _ evs 0%nat Hhx Hhep Hne) as (r & r' & evs' & E1 & E2 & E3 & E4).
    exists (flat_map (print_hepevt 0 (flux (g_cfg g))) evs), r, evs', r'.
    split; [reflexivity|]. split; [exact E1|]. split; [exact E2|]. split; [exact E3|].
    replace (S (List.length evs)) with (List.length evs + 1)%nat by lia. exact E4.
  - destruct Hh as (s & l & -> & Hcl & Hst).
    destruct (C19_json C flux s l config g n evs Hcl Hst) as (r & evs' & r' & E1 & E2 & E3 & E4 & _).
    exists s, r, evs', r'. split; [reflexivity|]. split; [exact E1|]. split; [apply HB; exact E2|].
    split; [|exact E4]. eapply Forall2_imp; [|exact E3]. intros a c. apply event_rel_imp. exact HB.
  - subst d. destruct (reader_ascii _ evs 0%nat Hx Hg Hne) as (r & r' & E1 & E2 & E3).
    exists (show_e17 (flux (g_cfg g)) ++ nl :: events_text evs), r, evs, r'.
    split; [reflexivity|]. split; [exact E1|]. split; [rewrite E2; apply HR; exact Hx|].
    split; [|replace (S (List.length evs)) with (List.length evs + 1)%nat by lia; exact E3].
    clear - Hg HR. induction Hg as [|ev evs [Hok _] _ IH]; constructor; [|exact IH].
    destruct Hok as (H1 & H2 & H3 & H4).
    assert (HP : forall ps, Forall (particle_ok finite_dbl) ps -> Forall2 (particle_rel near_dbl) ps ps).
    { intros ps HF. induction HF as [|p ps (P1 & P2 & P3 & P4 & P5 & P6 & P7) _ IHp]; constructor; [|exact IHp].
      unfold particle_rel. repeat split; apply HR; assumption. }
    unfold event_rel. split; [apply HP; exact H1|]. split; [apply HP; exact H2|].
    split; [apply HR; exact H3|]. split; reflexivity.
Qed.
Print Assumptions C19_run_then_read.

Example C19_example : finite_dbl (toy_flux tt) /\ hep_dbl (toy_flux tt) /\ Forall good_event [sample; sample] /\
  Forall hep_good [sample; sample].
Proof.
  split; [vm_compute; split; reflexivity|]. split; [vm_compute; repeat split; congruence|].
  split; [exact C08_example|]. destruct C10_example as (H1 & _ & H2).
  assert (H : hep_good sample).
  { split; [exact H1|]. split; [exact H2|]. split; vm_compute; congruence. }
  constructor; [exact H|constructor; [exact H|constructor]].
Qed.

(** ASCII files in append mode, any number of sessions one after another, each with
    its own average cross section and events (and close, which writes nothing). *)
Fixpoint append_sessions (l : list (spec_float * list event)) (d : disk) : res disk :=
  match l with
  | [] => Ok d
  | (x, evs) :: r =>
      do (f, a) <- open_file (b "ascii") (b "append") false None (match d with Some _ => true | None => false end) false;
      let d1 := apply_acts a d in
      let '(f1, a1) := write_flux x d1 f in
      do (f2, a2) <- write_many evs f1;
      append_sessions r (apply_acts (a1 ++ a2) d1)
  end.

(** The file holds the first cross section and then the events of all sessions, and
    the reader returns them all. *)
Theorem C19_appended : forall x evs l k,
  finite_dbl x -> Forall good_event (evs ++ flat_map snd l) -> evs ++ flat_map snd l <> [] ->
  exists s r r', append_sessions ((x, evs) :: l) None = Ok (Some s) /\ open_reader s = Ok r /\ reader_flux r = x /\
    calls (List.length (evs ++ flat_map snd l) + S k) r =
    Ok (map (pair true) (evs ++ flat_map snd l) ++ repeat (false, empty_event) (S k), r').
Proof.
  intros x evs l k Hx Hg Hne. destruct (C19_ascii x (evs ++ flat_map snd l) k Hx Hg Hne) as (r & r' & H1 & H2 & H3).
  exists (show_e17 x ++ nl :: events_text (evs ++ flat_map snd l)), r, r'. split; [|split; [exact H1|split; assumption]].
  assert (Hm : forall l s, s <> [] -> append_sessions l (Some s) = Ok (Some (s ++ events_text (flat_map snd l)))).
  { clear. induction l as [|[y evs] l IH]; intros s Hs; cbn [append_sessions].
    - cbn. rewrite app_nil_r. reflexivity.
    - change (open_file (b "ascii") (b "append") false None true false) with
        (Ok (A:=tfile * list act) (mkt FAscii Append None false dbl_zero, [Create])). cbn [bind].
      change (apply_acts [Create] (Some s)) with (Some s). destruct s as [|c s]; [congruence|]. unfold write_flux. cbn [t_format].
      destruct (write_many_ascii evs (mkt FAscii Append None false dbl_zero) eq_refl) as (a & -> & Ha). cbn [bind app].
      rewrite Ha. rewrite (IH ((c :: s) ++ events_text evs)) by discriminate.
      cbn [flat_map snd]. unfold events_text. rewrite flat_map_app, app_assoc. reflexivity. }
  cbn [append_sessions].
  change (open_file (b "ascii") (b "append") false None false false) with
    (Ok (A:=tfile * list act) (mkt FAscii Append None false dbl_zero, [Create])). cbn [bind].
  change (apply_acts [Create] None) with (Some (@nil ascii)). unfold write_flux. cbn [t_format t_mode t_indent t_comma].
  destruct (write_many_ascii evs (mkt FAscii Append None false x) eq_refl) as (a & -> & Ha). cbn [bind].
  rewrite apply_acts_app. change (apply_acts [Put (show_e17 x ++ [nl])] (Some [])) with (Some (show_e17 x ++ [nl])). rewrite Ha.
  rewrite Hm by (intros H; apply app_eq_nil in H as [H _]; apply app_eq_nil in H as [_ H]; discriminate H).
  unfold events_text. rewrite flat_map_app, <- !app_assoc. reflexivity.
Qed.
Print Assumptions C19_appended.

Example C19_appended_example : Forall good_event ([sample] ++ flat_map snd [(toy_flux tt, [sample])]) /\
  exists s, append_sessions [(toy_flux tt, [sample]); (toy_flux tt, [sample])] None = Ok (Some s).
Proof. split; [exact C08_example|]. eexists. vm_compute. reflexivity. Qed.

(** An ASCII file without events is refused. *)
Theorem C19_no_events_refuted : open_reader (show_e17 (toy_flux tt) ++ nl :: events_text []) = Er MarleyErr.
Proof. vm_compute. reflexivity. Qed.

(** ** C20: settings are validated *)

Definition documented : list (bytes * bytes) :=
  [(b "root", b "overwrite"); (b "hepevt", b "overwrite"); (b "json", b "overwrite"); (b "ascii", b "overwrite");
   (b "hepevt", b "append"); (b "ascii", b "append"); (b "root", b "resume"); (b "json", b "resume")].

(** Only the documented combinations are accepted; anything else is an error and
    touches no file. *)
Theorem C20_settings : forall fmt md,
  (In (fmt, md) documented -> exists r, parse_settings fmt md = Ok r) /\
  (~ In (fmt, md) documented -> parse_settings fmt md = Er MarleyErr /\
     forall force i ex answer, open_file fmt md force i ex answer = Er MarleyErr).
Proof.
  intros fmt md. split.
  - intros H. unfold documented in H. cbn [In] in H.
    repeat (destruct H as [H|H]; [injection H as <- <-; eexists; reflexivity|]). destruct H.
  - intros H. assert (E : parse_settings fmt md = Er MarleyErr).
    { unfold parse_settings, parse_format.
      destruct (bytes_eqb fmt (b "root")) eqn:E1; [apply bytes_eqb_eq in E1; subst|
      destruct (bytes_eqb fmt (b "hepevt")) eqn:E2; [apply bytes_eqb_eq in E2; subst|
      destruct (bytes_eqb fmt (b "json")) eqn:E3; [apply bytes_eqb_eq in E3; subst|
      destruct (bytes_eqb fmt (b "ascii")) eqn:E4; [apply bytes_eqb_eq in E4; subst|reflexivity]]]];
      (destruct (bytes_eqb md (b "overwrite")) eqn:M1;
         [apply bytes_eqb_eq in M1; subst; exfalso; apply H; unfold documented; cbn [In]; tauto|]);
      (destruct (bytes_eqb md (b "append")) eqn:M2;
         [apply bytes_eqb_eq in M2; subst; first [reflexivity|exfalso; apply H; unfold documented; cbn [In]; tauto]|]);
      (destruct (bytes_eqb md (b "resume")) eqn:M3;
         [apply bytes_eqb_eq in M3; subst; first [reflexivity|exfalso; apply H; unfold documented; cbn [In]; tauto]|]);
      reflexivity. }
    split; [exact E|]. intros. unfold open_file. rewrite E. reflexivity.
Qed.
Print Assumptions C20_settings.

(** An existing file is kept unless overwriting was asked for and either forced or
    confirmed. *)
Theorem C20_declined : forall fmt md force i answer s f a,
  open_file fmt md force i true answer = Ok (f, a) ->
  ~ (md = b "overwrite" /\ (force = true \/ answer = true)) ->
  apply_acts a (Some s) = Some s /\ t_mode f <> Overwrite.
Proof.
  intros fmt md force i answer s f a H Hn. unfold open_file in H.
  destruct (parse_settings fmt md) as [[f0 m]|] eqn:E; [|discriminate H]. cbn [bind] in H.
  destruct m.
  - assert (Hmd : md = b "overwrite").
    { unfold parse_settings in E. destruct (parse_format fmt) as [f1|]; [|discriminate E].
      destruct (bytes_eqb md (b "overwrite")) eqn:M1; [apply bytes_eqb_eq in M1; exact M1|].
      destruct (bytes_eqb md (b "append")); [destruct f1; discriminate E|].
      destruct (bytes_eqb md (b "resume")); [destruct f1; discriminate E|]. discriminate E. }
    destruct force; [exfalso; apply Hn; auto|]. destruct answer; [exfalso; apply Hn; auto|].
    cbn [andb negb] in H. destruct f0; injection H as <- <-; (split; [reflexivity|discriminate]).
  - injection H as <- <-. split; [reflexivity|discriminate].
  - destruct f0; try discriminate H. injection H as <- <-. split; [reflexivity|discriminate].
Qed.
Print Assumptions C20_declined.

(** And writing to a file that was kept never removes its old contents; only
    resume does. *)
Theorem C20_append : forall (C : Type) (flux : C -> spec_float) fmt md force i answer s f a evs f' a' config g n t,
  open_file fmt md force i true answer = Ok (f, a) -> t_mode f <> Overwrite ->
  write_many evs f = Ok (f', a') ->
  apply_acts (a ++ a' ++ close_file C flux config g n f') (Some s) = Some t -> exists u, t = s ++ u.
Proof.
  intros C flux fmt md force i answer s f a evs f' a' config g n t H Hm Hw Ht.
  assert (Ha : Forall grows a).
  { unfold open_file in H. destruct (parse_settings fmt md) as [[f0 m]|]; [|discriminate H]. cbn [bind] in H.
    destruct m; [destruct (_ && _ && _) in H; destruct f0| |destruct f0]; try discriminate H; injection H as <- <-;
      try (cbn [t_mode] in Hm; congruence); repeat constructor. }
  apply grow_prefix in Ht; [exact Ht|]. apply Forall_app. split; [exact Ha|]. apply Forall_app.
  split; [eapply write_many_grows; eassumption|apply close_grows].
Qed.
Print Assumptions C20_append.

Example C20_example : exists f a, open_file (b "ascii") (b "overwrite") false None true false = Ok (f, a) /\
  ~ (b "overwrite" = b "overwrite" /\ (false = true \/ false = true)) /\
  open_file (b "ascii") (b "resume") false None true false = Er MarleyErr.
Proof. do 2 eexists. split; [reflexivity|]. split; [|reflexivity]. intros [_ [H|H]]; discriminate H. Qed.
