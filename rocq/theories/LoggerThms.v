(** Property C50: which stream receives which message. *)
From Coq Require Import List ZArith Bool Ascii String Lia Permutation.
From Verif Require Import Base Logger.
Import ListNotations.
Open Scope list_scope.

(** ** Vocabulary: what the calls asked for *)

(** Is this one of the two standard streams? *)
Definition standard (s : sid) : bool := match s with Cout | Cerr => true | _ => false end.

(** The level last set for a stream. Standard streams cannot be added as shared pointers
    (but a standard stream that is already there can be given a new level that way). *)
Definition wanted1 (s : sid) (cur : option level) (op : lop) : option level :=
  match op with
  | OAdd ptr s' lev => if sid_eqb s' s then (if ptr && standard s then match cur with Some _ => Some lev | None => None end else Some lev) else cur
  | OClear => match s with Cerr => Some LWarning | _ => None end
  | _ => cur
  end.
Definition wanted (s : sid) (ops : list lop) : option level :=
  fold_left (wanted1 s) ops (match s with Cerr => Some LWarning | Cout => Some LInfo | _ => None end).

Definition switched1 (cur : bool) (op : lop) : bool := match op with OEnable on => on | _ => cur end.
(** Is logging switched on? *)
Definition switched (on : bool) (ops : list lop) : bool := fold_left switched1 ops on.

Definition spoken1 (st : bool * level) (op : lop) : bool * level :=
  match op with
  | OEnable on => (on, snd st)
  | OLog LDisabled => st
  | OLog lev => if fst st then (true, lev) else st
  | _ => st
  end.
(** The level of the last message logged while switched on (at first: info). *)
Definition spoken (on : bool) (ops : list lop) : level := snd (fold_left spoken1 ops (on, LInfo)).

(** A stream with this setting admits messages of level [lev]. *)
Definition admits (w : option level) (lev : level) : bool := match w with Some l => Z.leb (rank lev) (rank l) | None => false end.

(** All that a stream received, in order. *)
Definition received (s : sid) (w : written) : bytes := List.concat (map snd (filter (fun p => sid_eqb (fst p) s) w)).

(** One complete message. *)
Definition message (lev : level) (ts : list bytes) : list lop := OLog lev :: map OText ts ++ [OEnd].

Definition heading (lev : level) : bytes :=
  match lev with LError => Base.b "[ERROR]: " | LWarning => Base.b "[WARNING]: " | LDebug => Base.b "[DEBUG]: " | _ => [] end.

(** ** Lemmas *)

Lemma sid_eqb_eq a c : sid_eqb a c = true <-> a = c.
Proof. destruct a, c; cbn [sid_eqb]; split; intros H; try discriminate; try reflexivity; [apply Z.eqb_eq in H; congruence|injection H as ->; apply Z.eqb_refl]. Qed.
Lemma sid_eqb_refl a : sid_eqb a a = true. Proof. apply sid_eqb_eq. reflexivity. Qed.
Lemma sid_eqb_neq a c : a <> c -> sid_eqb a c = false.
Proof. intros H. destruct (sid_eqb a c) eqn:E; [|reflexivity]. apply sid_eqb_eq in E. contradiction. Qed.

Definition flag_ok (on : bool) (old : level) (o : ostr) : Prop :=
  if sid_eqb (s_id o) Cout
  then (s_on o = true -> on && level_ge (s_level o) old = true) /\ (level_ge LWarning old = false -> s_on o = on && level_ge (s_level o) old)
  else s_on o = on && level_ge (s_level o) old.

Record inv (on0 : bool) (ops : list lop) (g : logger) : Prop := {
  i_on : g_on g = switched on0 ops;
  i_old : g_old g = spoken on0 ops;
  i_nodup : NoDup (map s_id (g_streams g));
  i_level : forall s, option_map s_level (get_stream s (g_streams g)) = wanted s ops;
  i_flag : Forall (flag_ok (g_on g) (g_old g)) (g_streams g) }.

Lemma spoken_on on ops lev : fst (fold_left spoken1 ops (on, lev)) = switched on ops.
Proof.
  unfold switched. revert on lev. induction ops as [|op ops IH]; intros on lev; cbn [fold_left]; [reflexivity|].
  destruct op; cbn [spoken1 switched1 fst snd]; try apply IH. destruct lev0, on; cbn [fst]; apply IH.
Qed.

Lemma spoken_snoc on ops op : spoken on (ops ++ [op]) = snd (spoken1 (switched on ops, spoken on ops) op).
Proof. unfold spoken. rewrite fold_left_app. cbn [fold_left]. rewrite <- (spoken_on on ops LInfo). destruct (fold_left spoken1 ops (on, LInfo)). reflexivity. Qed.
Lemma switched_snoc on ops op : switched on (ops ++ [op]) = switched1 (switched on ops) op.
Proof. unfold switched. rewrite fold_left_app. reflexivity. Qed.
Lemma wanted_snoc s ops op : wanted s (ops ++ [op]) = wanted1 s (wanted s ops) op.
Proof. unfold wanted. rewrite fold_left_app. reflexivity. Qed.

Lemma get_map f s l : (forall o, s_id (f o) = s_id o) -> get_stream s (map f l) = option_map f (get_stream s l).
Proof. intros H. unfold get_stream. induction l as [|o l IH]; cbn [map find]; [reflexivity|]. rewrite H. destruct (sid_eqb _ _); [reflexivity|exact IH]. Qed.

Lemma get_update s s' lev on l : get_stream s' l <> None ->
  get_stream s (update s' lev on l) = if sid_eqb s' s then Some (mkostr s' lev on) else get_stream s l.
Proof.
  unfold get_stream. induction l as [|o l IH]; cbn [update find]; [contradiction|]. destruct (sid_eqb (s_id o) s') eqn:E.
  - intros _. cbn [find s_id]. apply sid_eqb_eq in E. rewrite E. destruct (sid_eqb s' s); reflexivity.
  - intros H. cbn [find]. destruct (sid_eqb (s_id o) s) eqn:E'; [|apply IH; exact H].
    apply sid_eqb_eq in E'. rewrite E' in E. destruct (sid_eqb s' s) eqn:E''; [|reflexivity]. apply sid_eqb_eq in E''. subst s'. rewrite sid_eqb_refl in E. discriminate.
Qed.

Lemma update_ids s lev on l : map s_id (update s lev on l) = map s_id l.
Proof. induction l as [|o l IH]; cbn [update map]; [reflexivity|]. destruct (sid_eqb _ _) eqn:E; cbn [map s_id]; [apply sid_eqb_eq in E; congruence|rewrite IH; reflexivity]. Qed.

Lemma update_flag (P : ostr -> Prop) s lev on l : P (mkostr s lev on) -> Forall P l -> Forall P (update s lev on l).
Proof. intros H HF. induction HF; cbn [update]; [constructor|]. destruct (sid_eqb _ _); constructor; assumption. Qed.

Lemma get_none s l : get_stream s l = None -> ~ In s (map s_id l).
Proof. unfold get_stream. intros H HI. apply in_map_iff in HI. destruct HI as (o & <- & HI). pose proof (find_none _ _ H o HI) as E. cbv beta in E. rewrite sid_eqb_refl in E. discriminate. Qed.

Lemma get_snoc s o l : get_stream (s_id o) l = None -> get_stream s (l ++ [o]) = if sid_eqb (s_id o) s then Some o else get_stream s l.
Proof.
  unfold get_stream. intros H. induction l as [|x l IH]; cbn [app find] in *; [reflexivity|]. destruct (sid_eqb (s_id x) (s_id o)) eqn:E; [discriminate|].
  destruct (sid_eqb (s_id x) s) eqn:E'; [|apply IH; exact H]. apply sid_eqb_eq in E'. destruct (sid_eqb (s_id o) s) eqn:E''; [|reflexivity].
  apply sid_eqb_eq in E''. rewrite E', E'', sid_eqb_refl in E. discriminate.
Qed.

Lemma fresh_flag on old s lev : flag_ok on old (mkostr s lev (on && level_ge lev old)).
Proof. unfold flag_ok. cbn [s_id s_level s_on]. destruct (sid_eqb _ _); auto. Qed.

Lemma standard_spec s : standard s = sid_eqb s Cout || sid_eqb s Cerr.
Proof. destruct s; reflexivity. Qed.

Lemma inv_add on0 ops g ptr s lev : inv on0 ops g -> inv on0 (ops ++ [OAdd ptr s lev]) (fst (add_stream ptr s lev g)).
Proof.
  intros [I1 I2 I3 I4 I5]. unfold add_stream. cbv zeta. destruct (get_stream s (g_streams g)) as [o|] eqn:E.
  - split; cbn [fst g_on g_old g_streams].
    + rewrite switched_snoc. exact I1.
    + rewrite spoken_snoc. exact I2.
    + rewrite update_ids. exact I3.
    + intros s'. rewrite get_update by congruence. rewrite wanted_snoc, <- I4. cbn [wanted1]. destruct (sid_eqb s s') eqn:E'; [|reflexivity]. apply sid_eqb_eq in E'. subst s'.
      rewrite E. cbn [option_map s_level]. destruct (ptr && standard s); reflexivity.
    + apply update_flag; [apply fresh_flag|exact I5].
  - rewrite <- standard_spec. destruct (ptr && standard s) eqn:EP; split; cbn [fst g_on g_old g_streams]; try (rewrite switched_snoc; exact I1); try (rewrite spoken_snoc; exact I2); try assumption.
    + intros s'. rewrite wanted_snoc, <- I4. cbn [wanted1]. destruct (sid_eqb s s') eqn:E'; [|reflexivity]. apply sid_eqb_eq in E'. subst s'. rewrite EP, E. reflexivity.
    + rewrite map_app. cbn [map s_id]. apply get_none in E.
      apply (Permutation.Permutation_NoDup (l := s :: map s_id (g_streams g))); [apply Permutation.Permutation_cons_append|constructor; assumption].
    + intros s'. rewrite get_snoc by exact E. cbn [s_id]. rewrite wanted_snoc, <- I4. cbn [wanted1]. destruct (sid_eqb s s') eqn:E'; [|reflexivity]. apply sid_eqb_eq in E'. subst s'. rewrite EP. reflexivity.
    + apply Forall_app. split; [exact I5|]. constructor; [apply fresh_flag|constructor].
Qed.

Lemma inv_new on : inv on [] (new_logger on).
Proof.
  unfold new_logger, add_stream. cbn. split; cbn [g_on g_old g_streams]; [reflexivity|reflexivity| | |].
  - cbn [map s_id]. repeat constructor; cbn [In]; intuition discriminate.
  - intros []; reflexivity.
  - repeat constructor; cbn; auto.
Qed.

Lemma inv_clear on0 ops g : inv on0 ops g -> inv on0 (ops ++ [OClear]) (clear_streams g).
Proof.
  intros [I1 I2 I3 I4 I5]. unfold clear_streams, add_stream. cbn [get_stream find g_streams g_on g_old andb fst app]. split; cbn [g_on g_old g_streams].
  - rewrite switched_snoc. exact I1.
  - rewrite spoken_snoc. exact I2.
  - cbn [map s_id]. repeat constructor. intros [].
  - intros s. rewrite wanted_snoc. destruct s; reflexivity.
  - constructor; [apply fresh_flag|constructor].
Qed.

Lemma inv_enable on0 ops g on : inv on0 ops g -> inv on0 (ops ++ [OEnable on]) (enable on g).
Proof.
  intros [I1 I2 I3 I4 I5]. unfold enable. split; cbn [g_on g_old g_streams].
  - rewrite switched_snoc. reflexivity.
  - rewrite spoken_snoc. exact I2.
  - rewrite map_map. exact I3.
  - intros s. rewrite wanted_snoc, <- I4, get_map by reflexivity. destruct (get_stream s (g_streams g)); reflexivity.
  - apply Forall_map. apply Forall_forall. intros o _. apply fresh_flag.
Qed.

Lemma level_eqb_eq a c : level_eqb a c = true -> a = c.
Proof. destruct a, c; cbn; intros; try discriminate; reflexivity. Qed.

Lemma new_flag old lev o : flag_ok true old o -> lev <> LDisabled ->
  let o' := mkostr (s_id o) (s_level o) (stream_on (negb (level_eqb lev old)) lev o) in flag_ok true lev o'.
Proof.
  intros H Hl o'. subst o'. unfold flag_ok in *. cbn [s_id s_level s_on]. unfold stream_on. destruct (level_eqb lev old) eqn:E; cbn [negb].
  - apply level_eqb_eq in E. subst old. exact H.
  - destruct (sid_eqb (s_id o) Cout) eqn:EC; [|reflexivity]. split.
    + intros H1. apply andb_true_iff in H1. cbn [andb]. apply H1.
    + intros ->. cbn [andb negb]. apply andb_true_r.
Qed.

Lemma inv_log on0 ops g lev : inv on0 ops g -> inv on0 (ops ++ [OLog lev]) (fst (log lev g)).
Proof.
  intros [I1 I2 I3 I4 I5]. unfold log. destruct (level_eqb lev LDisabled) eqn:EL.
  - apply level_eqb_eq in EL. subst lev. cbn [fst]. split; try assumption; [rewrite switched_snoc; exact I1|rewrite spoken_snoc; exact I2|intros s; rewrite wanted_snoc; apply I4].
  - assert (NL : lev <> LDisabled) by (intros ->; discriminate).
    assert (SP : spoken1 (switched on0 ops, spoken on0 ops) (OLog lev) = if switched on0 ops then (true, lev) else (switched on0 ops, spoken on0 ops)) by (destruct lev; [contradiction|reflexivity..]).
    destruct (g_on g) eqn:EO; cbv zeta; cbn [fst].
    + rewrite <- I1 in SP. split; cbn [g_on g_old g_streams].
      * rewrite switched_snoc. exact I1.
      * rewrite spoken_snoc, <- I1, SP. reflexivity.
      * rewrite map_map. exact I3.
      * intros s. rewrite wanted_snoc, get_map by reflexivity. cbn [wanted1]. rewrite <- I4. destruct (get_stream s (g_streams g)); reflexivity.
      * apply Forall_map. revert I5. apply Forall_impl. intros o Ho. apply new_flag; assumption.
    + rewrite <- I1 in SP. split; try assumption; rewrite ?EO; [rewrite switched_snoc; exact I1|rewrite spoken_snoc, <- I1, SP; exact I2|intros s; rewrite wanted_snoc; apply I4|exact I5].
Qed.

Lemma inv_same on0 ops g op : inv on0 ops g -> match op with OText _ | OEnd | ONewline => True | _ => False end -> inv on0 (ops ++ [op]) g.
Proof.
  intros [I1 I2 I3 I4 I5] H. split; [rewrite switched_snoc|rewrite spoken_snoc| |intros s; rewrite wanted_snoc|]; destruct op; try contradiction; try assumption; apply I4.
Qed.

Lemma inv_step on0 ops g op : inv on0 ops g -> inv on0 (ops ++ [op]) (fst (lstep g op)).
Proof.
  intros H. destruct op; cbn [lstep]; [apply inv_add|apply inv_clear|apply inv_enable|apply inv_log|apply inv_same; [|exact I]..]; exact H.
Qed.

Lemma inv_run on0 r : forall ops g g' w, inv on0 ops g -> lrun g r = Ok (g', w) -> inv on0 (ops ++ r) g'.
Proof.
  induction r as [|op r IH]; intros ops g g' w HI H; cbn [lrun] in H.
  - injection H as <- <-. rewrite app_nil_r. exact HI.
  - pose proof (inv_step _ _ _ op HI) as HS. destruct (lstep g op) as [g1 w1]. cbn [fst] in HS.
    assert (E : ops ++ op :: r = (ops ++ [op]) ++ r) by (rewrite <- app_assoc; reflexivity). rewrite E. destruct w1 as [w1|[]]; try (eapply IH; eassumption); try discriminate.
    destruct (lrun g1 r) as [[g2 w2]|] eqn:ER; cbn [bind] in H; [|discriminate]. injection H as <- <-. eapply IH; eassumption.
Qed.

(** *** What one stream receives *)

Lemma received_app s a c : received s (a ++ c) = received s a ++ received s c.
Proof. unfold received. rewrite filter_app, map_app, concat_app. reflexivity. Qed.

Lemma received_map s t f l : NoDup (map s_id l) ->
  received s (map (fun o => (s_id o, t)) (filter f l)) = match get_stream s l with Some o => if f o then t else [] | None => [] end.
Proof.
  unfold received, get_stream. induction l as [|o l IH]; cbn [filter map find]; intros H; [reflexivity|]. apply NoDup_cons_iff in H. destruct H as [H1 H2].
  destruct (sid_eqb (s_id o) s) eqn:E.
  - apply sid_eqb_eq in E. assert (N : find (fun o => sid_eqb (s_id o) s) l = None).
    { destruct (find _ l) as [x|] eqn:EF; [|reflexivity]. apply find_some in EF. destruct EF as [EF1 EF2]. apply sid_eqb_eq in EF2. exfalso. apply H1. rewrite E, <- EF2. apply in_map. exact EF1. }
    rewrite N in IH. destruct (f o); cbn [map filter fst]; [rewrite E, sid_eqb_refl; cbn [map snd List.concat]; rewrite IH by exact H2; apply app_nil_r|apply IH; exact H2].
  - rewrite <- IH by exact H2. destruct (f o); cbn [map filter fst]; [rewrite E|]; reflexivity.
Qed.

(** What a stream receives from one piece of text: depends on its flag only. *)
Definition flag (s : sid) (g : logger) : bool := match get_stream s (g_streams g) with Some o => s_on o | None => false end.

Lemma put_received s t g : s <> Null -> NoDup (map s_id (g_streams g)) -> received s (put_text t g) = if flag s g then t else [].
Proof.
  intros HS HN. unfold put_text. rewrite received_map by exact HN. unfold flag. destruct (get_stream s (g_streams g)) as [o|] eqn:E; [|reflexivity].
  apply find_some in E. destruct E as [_ E]. apply sid_eqb_eq in E. rewrite E, sid_eqb_neq by exact HS. rewrite andb_true_r. reflexivity.
Qed.

Lemma texts_run g ts : lrun g (map OText ts ++ [OEnd]) = Ok (g, flat_map (fun t => put_text t g) (ts ++ [[nl]])).
Proof.
  induction ts as [|t ts IH]; cbn [map app lrun lstep]; [reflexivity|]. rewrite IH. cbn [bind flat_map]. reflexivity.
Qed.

Lemma texts_received s g ts : s <> Null -> NoDup (map s_id (g_streams g)) ->
  received s (flat_map (fun t => put_text t g) ts) = if flag s g then List.concat ts else [].
Proof.
  intros HS HN. induction ts as [|t ts IH]; cbn [flat_map List.concat]; [destruct (flag s g); reflexivity|].
  rewrite received_app, IH, put_received by assumption. destruct (flag s g); reflexivity.
Qed.

Lemma flag_spec on0 ops g s : inv on0 ops g -> s <> Cout -> flag s g = switched on0 ops && admits (wanted s ops) (spoken on0 ops).
Proof.
  intros [I1 I2 I3 I4 I5] HS. unfold flag. rewrite <- I4, <- I1, <- I2. destruct (get_stream s (g_streams g)) as [o|] eqn:E; cbn [option_map admits]; [|symmetry; apply andb_false_r].
  apply find_some in E. destruct E as [E1 E2]. apply sid_eqb_eq in E2. rewrite Forall_forall in I5. specialize (I5 o E1). unfold flag_ok in I5. rewrite E2, sid_eqb_neq in I5 by exact HS. exact I5.
Qed.

Lemma flag_cout on0 ops g : inv on0 ops g ->
  (flag Cout g = true -> switched on0 ops && admits (wanted Cout ops) (spoken on0 ops) = true) /\
  ((rank (spoken on0 ops) > 2)%Z -> flag Cout g = switched on0 ops && admits (wanted Cout ops) (spoken on0 ops)).
Proof.
  intros [I1 I2 I3 I4 I5]. unfold flag. rewrite <- I4, <- I1, <- I2. destruct (get_stream Cout (g_streams g)) as [o|] eqn:E; cbn [option_map admits].
  - apply find_some in E. destruct E as [E1 E2]. apply sid_eqb_eq in E2. rewrite Forall_forall in I5. specialize (I5 o E1). unfold flag_ok in I5. rewrite E2, sid_eqb_refl in I5.
    split; [apply I5|]. intros H. apply I5. unfold level_ge. apply Z.leb_gt. cbn [rank]. lia.
  - split; [discriminate|]. intros _. symmetry. apply andb_false_r.
Qed.

Lemma heading_eq lev : level_str lev = heading lev. Proof. destruct lev; reflexivity. Qed.

(** The whole of a message, in terms of the flags after [log]. *)
Lemma message_received on0 ops g lev ts s g' w : inv on0 ops g -> lev <> LDisabled -> s <> Null -> lrun g (message lev ts) = Ok (g', w) ->
  inv on0 (ops ++ [OLog lev]) g' /\ received s w = if switched on0 ops && flag s g' then heading lev ++ List.concat ts ++ [nl] else [].
Proof.
  intros HI HL HS H. unfold message in H. cbn [lrun lstep] in H. pose proof (inv_log _ _ _ lev HI) as HI'. unfold log in *.
  assert (EL : level_eqb lev LDisabled = false) by (destruct lev; try reflexivity; contradiction). rewrite EL in *. rewrite (i_on _ _ _ HI) in *. destruct (switched on0 ops) eqn:ES; cbn [andb]; cbv zeta in *; cbn [fst] in HI'.
  - set (l := map _ (g_streams g)) in *. destruct (existsb _ _); [discriminate|]. rewrite texts_run in H. cbn [bind] in H. injection H as <- <-. split; [exact HI'|].
    pose proof (i_nodup _ _ _ HI') as ND. rewrite received_app, texts_received, received_map by assumption. rewrite concat_app. cbn [List.concat app]. cbn [g_streams]. unfold flag. cbn [g_streams].
    destruct (get_stream s l) as [o|]; [|reflexivity]. rewrite heading_eq. destruct (s_on o); reflexivity.
  - rewrite texts_run in H. cbn [bind app] in H. injection H as <- <-. split; [exact HI'|]. rewrite texts_received by (exact HS || exact (i_nodup _ _ _ HI)).
    assert (F : flag s g = false).
    { unfold flag. destruct (get_stream s (g_streams g)) as [o|] eqn:E; [|reflexivity]. apply find_some in E. destruct E as [E1 _]. pose proof (i_flag _ _ _ HI) as HF. rewrite Forall_forall in HF.
      specialize (HF o E1). rewrite (i_on _ _ _ HI), ES in HF. unfold flag_ok in HF. cbn [andb] in HF. destruct (sid_eqb _ _); [|exact HF]. destruct (s_on o); [|reflexivity]. destruct HF as [HF _]. discriminate (HF eq_refl). }
    rewrite F. reflexivity.
Qed.

Lemma said on0 ops lev : lev <> LDisabled -> switched on0 ops = true -> spoken on0 (ops ++ [OLog lev]) = lev.
Proof. intros H HS. rewrite spoken_snoc. rewrite HS. destruct lev; [contradiction|reflexivity..]. Qed.

(** ** Theorems *)

(** After any history that did not run into undefined behaviour, a message reaches a stream
    other than std::cout exactly when logging is switched on and the level last set for the
    stream admits the message; then it arrives whole, once, with the heading of its level. *)
Theorem C50_message on ops g w lev ts s g' w' :
  lrun (new_logger on) ops = Ok (g, w) -> lev <> LDisabled -> s <> Cout -> s <> Null -> lrun g (message lev ts) = Ok (g', w') ->
  received s w' = if switched on ops && admits (wanted s ops) lev then heading lev ++ List.concat ts ++ [nl] else [].
Proof.
  intros H HL HS HN HM. pose proof (inv_run _ _ _ _ _ _ (inv_new on) H) as HI. cbn [app] in HI.
  destruct (message_received _ _ _ _ _ _ _ _ HI HL HN HM) as [HI' ->]. destruct (switched on ops) eqn:ES; [|reflexivity]. cbn [andb].
  rewrite (flag_spec _ _ _ _ HI' HS), switched_snoc, (said _ _ _ HL ES), wanted_snoc. cbn [switched1 wanted1]. rewrite ES. reflexivity.
Qed.
Print Assumptions C50_message.

(** The same for std::cout and messages above the warning level. A warning or error reaches
    std::cout only if the level set for it admits it, and never if the message before was
    of another level. *)
Theorem C50_stdout on ops g w lev ts g' w' :
  lrun (new_logger on) ops = Ok (g, w) -> lev <> LDisabled -> lrun g (message lev ts) = Ok (g', w') ->
  let whole := heading lev ++ List.concat ts ++ [nl] in
  let open := switched on ops && admits (wanted Cout ops) lev in
  (lev = LInfo \/ lev = LDebug -> received Cout w' = if open then whole else []) /\
  (lev = LWarning \/ lev = LError -> (received Cout w' = [] \/ open = true /\ received Cout w' = whole) /\ (spoken on ops <> lev -> received Cout w' = [])).
Proof.
  intros H HL HM whole open. pose proof (inv_run _ _ _ _ _ _ (inv_new on) H) as HI. cbn [app] in HI.
  destruct (message_received _ _ _ _ _ Cout _ _ HI HL ltac:(discriminate) HM) as [HI' ->]. fold whole. destruct (flag_cout _ _ _ HI') as [F1 F2]. subst open.
  destruct (switched on ops) eqn:ES; cbn [andb]; [|split; intros _; [reflexivity|split; [left; reflexivity|reflexivity]]].
  rewrite switched_snoc, (said _ _ _ HL ES), wanted_snoc in F1, F2. cbn [switched1 wanted1] in F1, F2. rewrite ES in F1, F2. cbn [andb] in F1, F2. split.
  - intros HV. rewrite F2 by (destruct HV; subst lev; cbn [rank]; lia). reflexivity.
  - intros HV. split.
    + destruct (flag Cout g') eqn:EF; [right|left; reflexivity]. split; [apply F1; reflexivity|reflexivity].
    + intros HO. assert (EL : level_eqb lev LDisabled = false) by (destruct lev; try reflexivity; contradiction).
      unfold message in HM. cbn [lrun lstep] in HM. unfold log in HM. rewrite EL, (i_on _ _ _ HI), ES in HM. cbv zeta in HM. destruct (existsb _ _) in HM; [discriminate|]. rewrite texts_run in HM. cbn [bind] in HM. injection HM as <- _.
      unfold flag. cbn [g_streams]. rewrite get_map by reflexivity. rewrite (i_old _ _ _ HI).
      assert (CH : level_eqb lev (spoken on ops) = false) by (destruct (level_eqb lev (spoken on ops)) eqn:EE; [apply level_eqb_eq in EE; congruence|reflexivity]). rewrite CH. cbn [negb].
      destruct (get_stream Cout (g_streams g)) as [o|] eqn:EG; cbn [option_map]; [|reflexivity]. apply find_some in EG. destruct EG as [_ EG]. cbn [s_on]. unfold stream_on. rewrite EG.
      assert (WL : level_ge LWarning lev = true) by (destruct HV; subst lev; reflexivity). rewrite WL. cbn [negb]. rewrite andb_false_r. reflexivity.
Qed.
Print Assumptions C50_stdout.

(** Standard output is meant to be spared warnings (Logger.cc 197-203), but is not after
    logging is switched on again following a warning. *)
Theorem C50_stdout_refuted : exists ops g w g' w', lrun (new_logger true) ops = Ok (g, w) /\
  lrun g (message LWarning [Base.b "x"]) = Ok (g', w') /\ received Cout w' = Base.b "[WARNING]: x" ++ [nl].
Proof. exists [OLog LWarning; OEnd; OEnable true]. do 4 eexists. split; [reflexivity|]. split; [vm_compute; reflexivity|]. reflexivity. Qed.
Print Assumptions C50_stdout_refuted.

(** The only way a message goes wrong (apart from the level that may not be used) is a null
    pointer that was added as a stream and admits the message. *)
Theorem C50_defined on ops g w lev ts : lrun (new_logger on) ops = Ok (g, w) -> lev <> LDisabled ->
  if switched on ops && admits (wanted Null ops) lev then lrun g (message lev ts) = Er Undefined
  else exists g' w', lrun g (message lev ts) = Ok (g', w').
Proof.
  intros H HL. pose proof (inv_run _ _ _ _ _ _ (inv_new on) H) as HI. cbn [app] in HI. pose proof (inv_log _ _ _ lev HI) as HI'.
  assert (EL : level_eqb lev LDisabled = false) by (destruct lev; try reflexivity; contradiction).
  unfold message. cbn [lrun lstep]. unfold log in *. rewrite EL in *. rewrite (i_on _ _ _ HI) in *. destruct (switched on ops) eqn:ES; cbv zeta in *; cbn [fst andb] in *.
  - set (l := map _ (g_streams g)) in *. assert (F : flag Null (mklogger l true lev) = admits (wanted Null ops) lev).
    { rewrite (flag_spec _ _ _ Null HI' ltac:(discriminate)), switched_snoc, (said _ _ _ HL ES), wanted_snoc. cbn [switched1 wanted1]. rewrite ES. reflexivity. }
    rewrite <- F. assert (EX : existsb (fun o => sid_eqb (s_id o) Null) (filter s_on l) = flag Null (mklogger l true lev)).
    { pose proof (i_nodup _ _ _ HI') as ND. cbn [g_streams] in ND. unfold flag, get_stream. cbn [g_streams]. clear - ND. induction l as [|o l IH]; cbn [filter find map] in *; [reflexivity|].
      apply NoDup_cons_iff in ND. destruct ND as [N1 N2]. specialize (IH N2). destruct (sid_eqb (s_id o) Null) eqn:E.
      - destruct (s_on o) eqn:EO; cbn [existsb]; [rewrite E; reflexivity|]. rewrite IH. destruct (find _ l) as [x|] eqn:EF; [|reflexivity]. apply find_some in EF. destruct EF as [EF1 EF2].
        apply sid_eqb_eq in E. apply sid_eqb_eq in EF2. exfalso. apply N1. rewrite E, <- EF2. apply in_map. exact EF1.
      - destruct (s_on o); cbn [existsb]; [rewrite E|]; exact IH. }
    rewrite EX. destruct (flag Null _); [reflexivity|]. rewrite texts_run. cbn [bind]. do 2 eexists. reflexivity.
  - rewrite texts_run. cbn [bind]. do 2 eexists. reflexivity.
Qed.
Print Assumptions C50_defined.

(** The documentation says that newline ignores the level settings. It does not: a newline
    reaches a stream (other than std::cout) exactly if the stream admits the level of the
    last message. *)
Theorem C50_newline on ops g w s : lrun (new_logger on) ops = Ok (g, w) -> s <> Cout -> s <> Null ->
  exists w', lrun g [ONewline] = Ok (g, w') /\ received s w' = if switched on ops && admits (wanted s ops) (spoken on ops) then [nl] else [].
Proof.
  intros H HS HN. pose proof (inv_run _ _ _ _ _ _ (inv_new on) H) as HI. cbn [app] in HI. cbn [lrun lstep bind]. rewrite app_nil_r. eexists. split; [reflexivity|].
  rewrite put_received by (exact HN || exact (i_nodup _ _ _ HI)). rewrite (flag_spec _ _ _ _ HI HS). reflexivity.
Qed.
Print Assumptions C50_newline.

(** has_stream tells which streams are registered. *)
Theorem C50_registered on ops g w s : lrun (new_logger on) ops = Ok (g, w) -> has_stream g s = true <-> wanted s ops <> None.
Proof.
  intros H. pose proof (inv_run _ _ _ _ _ _ (inv_new on) H) as HI. cbn [app] in HI. rewrite <- (i_level _ _ _ HI). unfold has_stream. destruct (get_stream _ _); cbn [option_map]; split; try discriminate; intros; congruence.
Qed.
Print Assumptions C50_registered.

(** ** A case *)

Definition case_ops : list lop :=
  [OAdd true (Other 1) LDebug; OLog LInfo; OText (Base.b "a"); OEnd; OEnable false; OAdd true (Other 2) LError; OLog LWarning; OEnd; OEnable true;
   OClear; OAdd true Cout LDebug; OAdd false Cout LInfo; OAdd true (Other 1) LInfo].

Example C50_case : exists g w g' w', lrun (new_logger true) case_ops = Ok (g, w) /\ lrun g (message LWarning [Base.b "b"; Base.b "c"]) = Ok (g', w') /\
  received (Other 1) w' = Base.b "[WARNING]: bc" ++ [nl] /\ received (Other 2) w' = [] /\ received Cerr w' = Base.b "[WARNING]: bc" ++ [nl] /\ received Cout w' = [].
Proof. do 4 eexists. split; [vm_compute; reflexivity|]. split; [vm_compute; reflexivity|]. repeat split. Qed.

Example C50_null_case : exists g w, lrun (new_logger true) [OAdd true Null LDebug] = Ok (g, w) /\ lrun g (message LInfo []) = Er Undefined.
Proof. do 2 eexists. split; reflexivity. Qed.
