(** Property C51: lookups in the structure database. *)
From Coq Require Import List Ascii String ZArith Bool Lia Sorted.
From Coq Require Import Floats.SpecFloat.
From Verif Require Import Base Dbl Stream StreamProofs Strings Pdg PdgThms Names Event Levels LevelsTextProofs LevelsThms Target Files FilesThms Struct StructProofs DeexSpec DeexProofs.
Import ListNotations.
Open Scope list_scope.

(** ** Vocabulary *)

(** The database after a history of calls. *)
Definition db_after (ops : list dop) : db := fold_left dstep ops new_db.

(** The text of an index file and of a file of schemes. *)
Definition index_line (e : Z * bytes) : bytes := show_int (fst e) ++ sp ++ snd e ++ [nl].
Definition index_text (es : list (Z * bytes)) : bytes := flat_map index_line es.
Definition index_ok (es : list (Z * bytes)) : Prop :=
  Forall (fun e => is_int (fst e) /\ snd e <> [] /\ forallb is_space (snd e) = false /\ forallb (fun c => negb (is_space c)) (snd e) = true) es.

(** Schemes printed one after the other, with blank space between them. *)
Inductive scheme_file (fmt : spec_float -> bytes) : list scheme -> bytes -> Prop :=
| sf_nil w : forallb is_space w = true -> scheme_file fmt [] w
| sf_cons w s ss t : forallb is_space w = true -> scheme_file fmt ss t -> scheme_file fmt (s :: ss) (w ++ print_scheme fmt s ++ t).

(** The last file name listed for a nuclide. *)
Definition listed (p : Z) (es : list (Z * bytes)) : option bytes := option_map snd (find (fun e => Z.eqb p (fst e)) (rev es)).

(** The first scheme for a nuclide. *)
Definition first_of (p : Z) (ss : list scheme) : option scheme := find (fun s => Z.eqb p (nucleus_pid (s_Z s) (s_A s))) ss.

(** Schemes that can be printed and read. *)
Definition readable (rnd : spec_float -> spec_float) (P : spec_float -> Prop) (s : scheme) : Prop :=
  scheme_ok P s /\ gammas_down s /\ StronglySorted (fun x y => (units x < units y)%Z) (map (fun p => rnd (energy_of p)) (s_levels s)).

(** A nuclide that can be named in messages. *)
Definition nameable (p : Z) : Prop := (0 < particle_A p)%Z /\ exists n, element_symbol (particle_Z p) = Ok n.

(** The database knows the index [es], or finds it in the file system. *)
Definition knows (w : world) (d : db) (es : list (Z * bytes)) : Prop :=
  if d_loaded d then forall p, assoc p (d_names d) = listed p es
  else find_file (w_files w) (Base.b "nuclide_index.txt") (w_path w) <> [] /\
       f_text (w_files w) (find_file (w_files w) (Base.b "nuclide_index.txt") (w_path w)) = index_text es.

(** ** Lookups are stable *)

(** Once a scheme has been returned, every later lookup returns the same object with the
    same content, and changes nothing, until the scheme is removed or replaced: whatever
    happens to the files, and whatever else is added, loaded or looked up. *)
Theorem C51_same ops1 w p d' a s ops2 w2 :
  get_scheme w p (db_after ops1) = (d', Ok (Some (a, s))) -> Forall (spares p) ops2 ->
  let d := fold_left dstep ops2 d' in get_scheme w2 p d = (d, Ok (Some (a, s))).
Proof.
  intros H HF d. apply get_hit. apply run_keeps; [exact HF|]. destruct (get_result _ _ _ _ _ H) as [H1|[H1 _]]; [exact H1|discriminate].
Qed.
Print Assumptions C51_same.

(** Lookups of different nuclides return different objects. *)
Theorem C51_distinct ops w p d1 a s w2 q d2 s2 :
  get_scheme w p (db_after ops) = (d1, Ok (Some (a, s))) -> get_scheme w2 q d1 = (d2, Ok (Some (a, s2))) -> q = p.
Proof.
  intros H1 H2. assert (A : addressed d2).
  { pose proof (addressed_run ops new_db addressed_new) as A0. pose proof (addressed_step _ (DGet w p) A0) as A1. cbn [dstep] in A1. fold (db_after ops) in A1. rewrite H1 in A1. cbn [fst] in A1.
    pose proof (addressed_step _ (DGet w2 q) A1) as A2. cbn [dstep] in A2. rewrite H2 in A2. exact A2. }
  destruct (get_result _ _ _ _ _ H1) as [K1|[K1 _]]; [|discriminate]. destruct (get_result _ _ _ _ _ H2) as [K2|[K2 _]]; [|discriminate].
  pose proof (get_entry_none w2 q d1 p _ K1) as K3. rewrite H2 in K3. cbn [fst] in K3. exact (proj2 (A p a s K3) q s2 K2).
Qed.
Print Assumptions C51_distinct.

(** ** Schemes given by the user *)

(** A scheme given for a nuclide without an entry, or read for it from a file, is what
    lookups return from then on. *)
Theorem C51_explicit ops1 p s ops2 w : Forall (spares p) ops2 ->
  (assoc p (d_table (db_after ops1)) = None -> exists d a, get_scheme w p (db_after (ops1 ++ DAdd p (Some s) :: ops2)) = (d, Ok (Some (a, s)))) /\
  (exists d a, get_scheme w p (db_after (ops1 ++ DEmplace p (Ok s) :: ops2)) = (d, Ok (Some (a, s)))).
Proof.
  intros HF. unfold db_after. rewrite !fold_left_app. fold (db_after ops1). cbn [fold_left dstep]. split.
  - intros HN. do 2 eexists. apply get_hit. apply run_keeps; [exact HF|]. rewrite add_entry. unfold entry_of. rewrite HN, Z.eqb_refl. reflexivity.
  - do 2 eexists. apply get_hit. apply run_keeps; [exact HF|]. unfold emplace_scheme. cbn [fst]. rewrite add_entry. unfold entry_of at 1. cbn [set_table d_table]. rewrite assoc_erase, Z.eqb_refl. reflexivity.
Qed.
Print Assumptions C51_explicit.

(** Where there is an entry, a scheme that is added is dropped. *)
Theorem C51_dropped ops p s e q w : assoc p (d_table (db_after ops)) = Some e ->
  snd (get_scheme w p (db_after (ops ++ [DAdd p s]))) = Ok e /\ (q <> p -> assoc q (d_table (db_after (ops ++ [DAdd p s]))) = assoc q (d_table (db_after ops))).
Proof.
  intros H. unfold db_after. rewrite fold_left_app. fold (db_after ops). cbn [fold_left dstep]. split.
  - rewrite (get_hit w p _ e); [reflexivity|]. rewrite add_entry. unfold entry_of. rewrite H. reflexivity.
  - intros HN. change (entry_of q (add_scheme p s (db_after ops)) = entry_of q (db_after ops)). rewrite add_entry. destruct (entry_of q (db_after ops)); [reflexivity|]. destruct (Z.eqb_spec q p); [contradiction|reflexivity].
Qed.
Print Assumptions C51_dropped.

(** After removal, or after clearing, there is no entry; the others are as before. *)
Theorem C51_removed ops p q :
  assoc p (d_table (db_after (ops ++ [DRemove p]))) = None /\ (q <> p -> assoc q (d_table (db_after (ops ++ [DRemove p]))) = assoc q (d_table (db_after ops))) /\
  d_table (db_after (ops ++ [DClear])) = [].
Proof.
  unfold db_after. rewrite !fold_left_app. fold (db_after ops). cbn [fold_left dstep]. unfold remove_scheme, clear, set_table. cbn [d_table]. rewrite !assoc_erase, Z.eqb_refl.
  split; [reflexivity|]. split; [|reflexivity]. intros HN. destruct (Z.eqb_spec q p); [contradiction|reflexivity].
Qed.
Print Assumptions C51_removed.

(** Asking by proton and nucleon number is asking by the code of the nuclide; neutrons and
    protons have codes of their own. *)
Theorem C51_by_numbers w z a d : nuclide z a ->
  get_scheme_ZA w z a d = get_scheme w (if (a =? 1)%Z then (if (z =? 0)%Z then 2112 else 2212) else 1000000000 + 10000 * z + 10 * a)%Z d.
Proof.
  intros [H1 H2]. unfold get_scheme_ZA. f_equal. unfold nucleus_pid. destruct (Z.eqb_spec a 1) as [->|N]; [|rewrite !andb_false_r; lia].
  rewrite !andb_true_r. destruct (Z.eqb_spec z 0); [reflexivity|]. destruct (Z.eqb_spec z 1); [reflexivity|]. exfalso. lia.
Qed.
Print Assumptions C51_by_numbers.

(** ** Automatic loading *)

(** *** Reading the index *)

Lemma span_word_ok n t : forallb (fun c => negb (is_space c)) n = true -> match t with c :: _ => is_space c = true | [] => True end -> span_word (n ++ t) = (n, t).
Proof.
  induction n as [|c n IH]; cbn [forallb app span_word]; intros H HT.
  - destruct t as [|c t]; cbn [span_word]; [reflexivity|]. rewrite HT. reflexivity.
  - apply andb_true_iff in H. destruct H as [H1 H2]. apply negb_true_iff in H1. rewrite H1, IH by assumption. reflexivity.
Qed.

Lemma rd_word_ok w n t : forallb is_space w = true -> n <> [] -> forallb (fun c => negb (is_space c)) n = true -> match t with c :: _ => is_space c = true | [] => True end -> rd_word (w ++ n ++ t) = Some (n, t).
Proof.
  intros HW HN HS HT. unfold rd_word. rewrite skip_sp_app by exact HW. destruct n as [|c n]; [contradiction|]. cbn [app skip_sp]. cbn [forallb] in HS.
  pose proof HS as HS'. apply andb_true_iff in HS'. destruct HS' as [HS1 _]. apply negb_true_iff in HS1. rewrite HS1. change (c :: n ++ t) with ((c :: n) ++ t). rewrite span_word_ok by assumption. reflexivity.
Qed.

Lemma listed_snoc p es e : listed p (es ++ [e]) = if Z.eqb p (fst e) then Some (snd e) else listed p es.
Proof. unfold listed. rewrite rev_app_distr. cbn [rev app find]. destruct (Z.eqb p (fst e)); reflexivity. Qed.

Lemma read_index_ok es : index_ok es -> forall fuel w pre l, (List.length es < fuel)%nat -> forallb is_space w = true -> (forall p, assoc p l = listed p pre) ->
  forall p, assoc p (read_index fuel (w ++ index_text es) l) = listed p (pre ++ es).
Proof.
  intros HO. induction HO as [|[q n] es (H1 & H2 & H3 & H4) HO IH]; intros fuel w pre l HL HW HE p; (destruct fuel as [|fuel]; [cbn [List.length] in HL; lia|]).
  - unfold index_text. cbn [flat_map]. rewrite !app_nil_r. cbn [read_index]. unfold rd_int. rewrite rd_num_blank by exact HW. apply HE.
  - cbn [fst snd] in *. unfold index_text. cbn [flat_map]. unfold index_line at 1. cbn [fst snd]. rewrite <- !app_assoc. cbn [read_index]. unfold rd_int. rewrite rd_num_show; [|exact HW|exact H1|reflexivity]. cbn [obind].
    rewrite rd_word_ok; [|reflexivity|exact H2|exact H4|reflexivity]. cbn [obind]. replace (pre ++ (q, n) :: es) with ((pre ++ [(q, n)]) ++ es) by (rewrite <- app_assoc; reflexivity).
    apply IH; [cbn [List.length] in HL; lia|reflexivity|]. intros k. rewrite assoc_assign, listed_snoc, HE. reflexivity.
Qed.

Lemma index_text_len es : index_ok es -> (List.length es <= List.length (index_text es))%nat.
Proof. intros HO. induction HO as [|e es _ _ IH]; [apply le_n|]. unfold index_text in *. cbn [flat_map List.length]. rewrite app_length. unfold index_line at 1. rewrite !app_length. cbn [List.length]. lia. Qed.

(** *** Reading a file of schemes *)

Lemma read_scheme_blank sc w s : forallb is_space w = true -> read_scheme sc (w ++ s) = read_scheme sc s.
Proof. intros HW. unfold read_scheme, rd_int, rd_num. rewrite skip_sp_app by exact HW. reflexivity. Qed.

Lemma scheme_file_blank fmt ss t w : scheme_file fmt ss t -> forallb is_space w = true -> scheme_file fmt ss (w ++ t).
Proof. intros H HW. destruct H as [w' H|w' s ss t H H']; [|rewrite app_assoc]; constructor; try assumption; rewrite forallb_app, HW; assumption. Qed.

Section files.
  Variables (fmt : spec_float -> bytes) (rnd : spec_float -> spec_float) (P : spec_float -> Prop).
  Hypothesis fmt_read : forall w x t, forallb is_space w = true -> P x -> match t with c :: _ => is_space c = true | [] => True end -> rd_dbl (w ++ fmt x ++ t) = Some (rnd x, t).

  (** The entry for [q] after the schemes [ss] were offered to a table. *)
  Definition offered (q : Z) (ss : list scheme) (old new : option entry) : Prop :=
    match old with
    | Some e => new = Some e
    | None => match first_of q ss with
              | None => new = None
              | Some s => exists a s', new = Some (Some (a, s')) /\ shape s' = shape_of rnd s
              end
    end.

  Lemma load_all_ok w p ss t : scheme_file fmt ss t -> Forall (readable rnd P) ss -> Forall (fun s => nameable (nucleus_pid (s_Z s) (s_A s))) ss ->
    forall fuel found d, (List.length ss < fuel)%nat ->
    exists d', load_all fuel w p found t d = (d', Ok (found || match first_of p ss with Some _ => true | None => false end)) /\
      forall q, offered q ss (entry_of q d) (entry_of q d').
  Proof.
    intros HF. induction HF as [b Hb|b s ss t Hb HF IH]; intros HR HN fuel found d HL; (destruct fuel as [|fuel]; [cbn [List.length] in HL; lia|]).
    - cbn [load_all]. unfold read_scheme. unfold rd_int. rewrite rd_num_blank by exact Hb. cbn [obind]. exists d. rewrite orb_false_r. split; [reflexivity|]. intros q. unfold offered. destruct (entry_of q d); reflexivity.
    - cbn [load_all]. rewrite read_scheme_blank by exact Hb. destruct (Forall_inv HR) as (R1 & R2 & R3).
      destruct (C30_round_trip fmt rnd P fmt_read s (new_scheme 0 0) t R1 R2 R3) as (s' & E & HS). rewrite E. cbv zeta.
      assert (EZ : s_Z s' = s_Z s /\ s_A s' = s_A s) by (unfold shape, shape_of in HS; injection HS as Z1 Z2 _; auto). destruct EZ as [-> ->]. set (ps := nucleus_pid (s_Z s) (s_A s)) in *.
      destruct (Forall_inv HN) as [N1 (nm & N2)]. fold ps in N1, N2.
      assert (EH : (do _ <- target_atom ps; say (w_debug w) ps) = Ok tt).
      { unfold target_atom. destruct (Z.leb_spec (particle_A ps) 0); [lia|]. cbn [bind]. unfold say, atom_name. rewrite N2. destruct (w_debug w); reflexivity. }
      rewrite EH. clear EH. assert (HI := fun found d => IH (Forall_inv_tail HR) (Forall_inv_tail HN) fuel found d). clear IH.
      assert (FB : forall found d, exists d', load_all fuel w p found ([nl] ++ t) d = (d', Ok (found || match first_of p ss with Some _ => true | None => false end)) /\ forall q, offered q ss (entry_of q d) (entry_of q d')).
      { intros f0 d0. destruct (HI f0 d0 ltac:(cbn [List.length] in HL; lia)) as (d' & E' & HO). exists d'. split; [|exact HO]. rewrite <- E'. clear - t. destruct fuel; [reflexivity|]. cbn [load_all]. rewrite read_scheme_blank by reflexivity. reflexivity. }
      destruct (FB (found || Z.eqb p ps) (add_scheme ps (Some s') d)) as (d' & E' & HO). exists d'. split.
      + rewrite E'. f_equal. f_equal. unfold first_of. cbn [find]. fold ps. destruct (Z.eqb p ps); [rewrite orb_true_r; reflexivity|rewrite orb_false_r; reflexivity].
      + intros q. specialize (HO q). unfold offered in *. rewrite add_entry in HO. unfold first_of. cbn [find]. fold ps. destruct (entry_of q d); [exact HO|]. destruct (Z.eqb q ps); [|exact HO].
        exists (d_next d), s'. split; [exact HO|exact HS].
  Qed.

  Lemma scheme_file_len ss t : scheme_file fmt ss t -> (List.length ss <= List.length t)%nat.
  Proof.
    intros H. induction H as [|b s ss t Hb HF IH]; cbn [List.length]; [lia|]. rewrite !app_length. unfold print_scheme. rewrite !app_length. cbn [List.length]. unfold sp. cbn. lia.
  Qed.
End files.

(** What a lookup of a nuclide without an entry does, on an index and data files that can be
    read. A nuclide that is not listed gives a null pointer and changes no entry. Otherwise
    all schemes of the listed file are offered to the table (an existing entry stays, the
    first scheme for a nuclide wins); the scheme looked for is returned as it was printed,
    or else a null pointer, which is kept. The index is known afterwards. *)
Theorem C51_lookup fmt rnd (P : spec_float -> Prop) ops w p es :
  (forall w x t, forallb is_space w = true -> P x -> match t with c :: _ => is_space c = true | [] => True end -> rd_dbl (w ++ fmt x ++ t) = Some (rnd x, t)) ->
  let d := db_after ops in assoc p (d_table d) = None -> nameable p -> knows w d es -> index_ok es ->
  match listed p es with
  | None => exists d', get_scheme w p d = (d', Ok None) /\ d_table d' = d_table d /\ forall w', knows w' d' es
  | Some name =>
      let path := find_file (w_files w) name (w_path w) in
      forall ss, scheme_file fmt ss (match path with [] => [] | _ => f_text (w_files w) path end) -> Forall (readable rnd P) ss -> Forall (fun s => nameable (nucleus_pid (s_Z s) (s_A s))) ss ->
      exists d' e, get_scheme w p d = (d', Ok e) /\ (forall w', knows w' d' es) /\
        match first_of p ss with
        | None => e = None
        | Some s => exists a s', e = Some (a, s') /\ shape s' = shape_of rnd s
        end /\
        forall q, q <> p -> offered rnd q ss (assoc q (d_table d)) (assoc q (d_table d'))
  end.
Proof.
  intros HF d HN (HA & nm & HP) HK HI.
  assert (II : index_inv d) by (apply index_run; intros _; reflexivity).
  assert (EH : (do _ <- target_atom p; say (w_debug w) p) = Ok tt).
  { unfold target_atom. destruct (Z.leb_spec (particle_A p) 0); [lia|]. cbn [bind]. unfold say, atom_name. rewrite HP. destruct (w_debug w); reflexivity. }
  assert (E1 : exists d1, (if d_loaded d then (d, Ok tt) else load_index w d) = (d1, Ok tt) /\ d_table d1 = d_table d /\ (d_loaded d1 = true /\ forall q, assoc q (d_names d1) = listed q es)).
  { unfold knows in HK. destruct (d_loaded d) eqn:EL; [exists d; repeat split; assumption|]. destruct HK as [K1 K2]. unfold load_index. fold index_name in K1, K2. destruct (find_file (w_files w) index_name (w_path w)) as [|c r] eqn:EF; [contradiction|].
    cbv zeta. eexists. split; [reflexivity|]. split; [reflexivity|]. split; [reflexivity|]. cbn [d_names]. rewrite K2, (II EL). intros q.
    apply (read_index_ok es HI (S (List.length (index_text es))) [] [] []); [pose proof (index_text_len es HI); lia|reflexivity|reflexivity]. }
  destruct E1 as (d1 & E1 & T1 & L1 & N1). unfold get_scheme. rewrite HN, EH, E1, N1.
  assert (KN : forall d2 w', d_loaded d2 = d_loaded d1 -> d_names d2 = d_names d1 -> knows w' d2 es) by (intros d2 w' A B; unfold knows; rewrite A, L1, B; exact N1).
  destruct (listed p es) as [name|].
  - cbv zeta. intros ss HS HR HM. set (path := find_file (w_files w) name (w_path w)) in *.
    set (t := match path with [] => [] | _ => f_text (w_files w) path end) in *.
    replace (match path with [] => [] | a :: l => f_text (w_files w) (a :: l) end) with t by (subst t; destruct path; reflexivity). cbv zeta.
    destruct (load_all_ok fmt rnd P HF w p ss t HS HR HM (S (List.length t)) false d1) as (d2 & E2 & HO); [pose proof (scheme_file_len fmt ss t HS); lia|].
    pose proof (load_rest w p (S (List.length t)) false t d1) as LR. rewrite E2 in LR |- *. cbv zeta in LR. cbn [fst] in LR. destruct LR as (LR1 & LR2 & _). cbn [orb].
    assert (HO' : forall q, offered rnd q ss (assoc q (d_table d)) (assoc q (d_table d2))) by (intros q; specialize (HO q); unfold entry_of in HO; rewrite T1 in HO; exact HO). clear HO.
    pose proof (HO' p) as HP'. unfold offered in HP'. rewrite HN in HP'. destruct (first_of p ss) as [s|] eqn:EF.
    + destruct HP' as (a & s' & HP1 & HP2). rewrite HP1. do 2 eexists. split; [reflexivity|]. split; [intros w'; apply KN; assumption|]. split; [exists a, s'; split; [reflexivity|exact HP2]|]. intros q _. apply HO'.
    + assert (ES : say (w_warn w) p = Ok tt) by (unfold say, atom_name; rewrite HP; destruct (w_warn w); reflexivity). rewrite ES. cbn [set_table d_table]. rewrite assoc_assign, Z.eqb_refl. do 2 eexists. split; [reflexivity|].
      split; [intros w'; apply KN; assumption|]. split; [reflexivity|]. intros q HQ. cbn [set_table d_table]. rewrite assoc_assign. destruct (Z.eqb_spec q p); [contradiction|]. apply HO'.
  - exists d1. split; [reflexivity|]. split; [exact T1|]. intros w'. apply KN; reflexivity.
Qed.
Print Assumptions C51_lookup.

(** Whatever the files contain, a lookup comes to an end, and it does not touch entries that
    exist: neither when it succeeds nor when it throws. *)
Theorem C51_total w p d : snd (get_scheme w p d) <> Er NoFuel /\ forall q e, assoc q (d_table d) = Some e -> assoc q (d_table (fst (get_scheme w p d))) = Some e.
Proof.
  split; [|intros q e; exact (get_entry_none w p d q e)]. unfold get_scheme. destruct (assoc p (d_table d)) as [e|]; [discriminate|].
  pose proof (head_fuel (w_debug w) p) as HF. destruct (bind _ _) as [u|]; [|cbn [snd]; congruence]. clear HF u.
  assert (F1 : snd (if d_loaded d then (d, Ok tt) else load_index w d) <> Er NoFuel) by (destruct (d_loaded d); [discriminate|]; unfold load_index; destruct (find_file _ _ _); discriminate).
  destruct (if d_loaded d then (d, Ok tt) else load_index w d) as [d1 [u|]]; cbn [snd] in *; [|congruence]. clear F1 u. destruct (assoc p (d_names d1)) as [name|]; [|discriminate]. cbv zeta.
  set (t := match find_file _ _ _ with [] => [] | _ => _ end). pose proof (load_all_fuel w p (S (List.length t)) false t d1 ltac:(lia)) as F2.
  destruct (load_all (S (List.length t)) w p false t d1) as [d2 [found|]] eqn:EL; cbn [snd] in *; [|congruence]. clear F2.
  assert (F3 : (if found then Ok tt else say (w_warn w) p) <> Er NoFuel) by (destruct found; [discriminate|apply say_fuel]). destruct (if found then Ok tt else say (w_warn w) p); cbn [snd]; [|congruence]. clear F3.
  destruct found.
  - pose proof (load_all_found w p _ _ _ _ _ _ EL ltac:(discriminate) eq_refl) as HE. unfold entry_of in HE. destruct (assoc p (d_table d2)); cbn [snd]; congruence.
  - cbn [set_table d_table]. rewrite assoc_assign, Z.eqb_refl. discriminate.
Qed.
Print Assumptions C51_total.

(** ** Models *)

(** The calls with separate Z and A are given nuclides. *)
Definition good_dop (op : dop) : Prop := match op with DModelZA _ _ z a => nuclide z a | _ => True end.

Definition models_ok (d : db) : Prop := forall k p n z a, assoc p (d_models d k) = Some (n, (z, a)) -> z = particle_Z p /\ a = particle_A p.

Lemma find_model_spec w k p z a d : match find_model w k p z a d with
  | (d', Ok m) => assoc p (d_models d' k) = Some m /\ (assoc p (d_models d k) = None -> m = (d_next d, (z, a)))
  | (d', Er _) => d' = d end /\
  (forall k' q m, assoc q (d_models d k') = Some m -> assoc q (d_models (fst (find_model w k p z a d)) k') = Some m) /\
  (forall k' q m, assoc q (d_models (fst (find_model w k p z a d)) k') = Some m -> assoc q (d_models d k') = Some m \/ (k' = k /\ q = p /\ m = (d_next d, (z, a)))).
Proof.
  unfold find_model. destruct (assoc p (d_models d k)) as [m|] eqn:E; [split; [split; [exact E|congruence]|split; auto]|]. destruct (w_make w k z a); [|split; [reflexivity|split; auto]].
  cbn [new_address fst d_models d_next]. split; [split; [|intros _; reflexivity]|split].
  - destruct k; cbn [d_models assoc]; rewrite Z.eqb_refl; reflexivity.
  - intros k' q m H. assert (HN : q = p -> k' <> k) by (intros -> ->; congruence). destruct k, k'; cbn [d_models assoc]; try exact H; (destruct (Z.eqb_spec q p); [exfalso; apply HN; auto|exact H]).
  - intros k' q m H. destruct k, k'; cbn [d_models assoc] in H; try (left; exact H); (destruct (Z.eqb_spec q p) as [->|]; [right; injection H as <-; auto|left; exact H]).
Qed.

Lemma models_step d op : good_dop op ->
  (forall k q m, assoc q (d_models d k) = Some m -> assoc q (d_models (dstep d op) k) = Some m) /\ (models_ok d -> models_ok (dstep d op)).
Proof.
  assert (SAME : forall d', d_models d' = d_models d -> (forall k q m, assoc q (d_models d k) = Some m -> assoc q (d_models d' k) = Some m) /\ (models_ok d -> models_ok d')) by (intros d' E; unfold models_ok; rewrite E; auto).
  intros HG. destruct op as [q s|q r|q| |w q|w k q|w k z a]; cbn [dstep good_dop] in *.
  - apply SAME. apply add_rest.
  - apply SAME. unfold emplace_scheme. destruct r as [s|]; cbn [fst]; [rewrite (proj2 (proj2 (add_rest q (Some s) (set_table (erase q) d))))|]; reflexivity.
  - apply SAME. reflexivity.
  - apply SAME. reflexivity.
  - apply SAME. apply get_rest.
  - destruct (get_model_is w k q d) as (p' & -> & HP). destruct (find_model_spec w k p' (particle_Z q) (particle_A q) d) as (_ & H1 & H2). split; [exact H1|]. intros HM k' q' n z a HE. apply H2 in HE. destruct HE as [HE|(-> & -> & HE)]; [eapply HM; exact HE|].
    injection HE as _ -> ->. destruct HP as [->|[_ ->]]; [auto|]. clear. unfold nucleus_pid. set (z := particle_Z q). set (a := particle_A q).
    assert (RZ : (0 <= z < 1000)%Z) by (subst z; unfold particle_Z; destruct (_ =? _)%Z; [lia|]; destruct (_ =? _)%Z; [lia|]; destruct (_ <? _)%Z; [|lia]; pose proof (Z.mod_pos_bound q 10000000 ltac:(lia)); split; [apply Z.div_pos; lia|apply Z.div_lt_upper_bound; lia]).
    assert (RA : (0 <= a < 1000)%Z) by (subst a; unfold particle_A; destruct (_ =? _)%Z; [lia|]; destruct (_ =? _)%Z; [lia|]; destruct (_ <? _)%Z; [|lia]; pose proof (Z.mod_pos_bound q 10000 ltac:(lia)); split; [apply Z.div_pos; lia|apply Z.div_lt_upper_bound; lia]).
    clearbody z a. destruct (Z.eqb_spec z 0) as [->|Nz]; cbn [andb].
    + destruct (Z.eqb_spec a 1) as [->|Na]; [split; reflexivity|]. change (0 =? 1)%Z with false. cbn [andb]. unfold particle_Z, particle_A, PROTON, NEUTRON.
      rewrite (proj2 (Z.eqb_neq _ 2212)), (proj2 (Z.eqb_neq _ 2112)) by lia. destruct (Z.ltb_spec 1000000000 (10000 * 0 + 10 * a + 1000000000)); [|split; lia].
      split; Z.div_mod_to_equations; lia.
    + destruct (Z.eqb_spec z 1) as [->|Nz1]; cbn [andb].
      * destruct (Z.eqb_spec a 1) as [->|Na]; [split; reflexivity|]. unfold particle_Z, particle_A, PROTON, NEUTRON.
        rewrite (proj2 (Z.eqb_neq _ 2212)), (proj2 (Z.eqb_neq _ 2112)) by lia. rewrite (proj2 (Z.ltb_lt 1000000000 _)) by lia. split; Z.div_mod_to_equations; lia.
      * unfold particle_Z, particle_A, PROTON, NEUTRON.
        rewrite (proj2 (Z.eqb_neq _ 2212)), (proj2 (Z.eqb_neq _ 2112)) by lia. rewrite (proj2 (Z.ltb_lt 1000000000 _)) by lia. split; Z.div_mod_to_equations; lia.
  - destruct (get_model_ZA_is w k z a d) as (p' & z' & a' & -> & HP & HZ). destruct (find_model_spec w k p' z' a' d) as (_ & H1 & H2). split; [exact H1|]. intros HM k' q' n z0 a0 HE. apply H2 in HE. destruct HE as [HE|(-> & -> & HE)]; [eapply HM; exact HE|].
    injection HE as _ -> ->. destruct (nuclide_decodes z a HG) as [D1 D2]. destruct HZ as [HZ|HZ]; injection HZ as -> ->; rewrite HP in *; rewrite ?D1, ?D2; auto.
Qed.

Lemma models_run ops : forall d, Forall good_dop ops -> (forall k q m, assoc q (d_models d k) = Some m -> assoc q (d_models (fold_left dstep ops d) k) = Some m) /\ (models_ok d -> models_ok (fold_left dstep ops d)).
Proof.
  induction ops as [|op ops IH]; intros d HF; cbn [fold_left]; [auto|]. destruct (models_step d op (Forall_inv HF)) as [S1 S2]. destruct (IH (dstep d op) (Forall_inv_tail HF)) as [I1 I2]. split; auto.
Qed.

(** The optical model, level density and strength function of a nuclide are built once, for
    that nuclide, and are the same objects ever after; giving the code or Z and A makes no
    difference. *)
Theorem C51_models ops1 w k z a d' n y ops2 w2 : nuclide z a -> Forall good_dop ops1 -> Forall good_dop ops2 ->
  get_model w k (nucleus_pid z a) (db_after ops1) = (d', Ok (n, y)) ->
  y = (z, a) /\ (let d := fold_left dstep ops2 d' in get_model w2 k (nucleus_pid z a) d = (d, Ok (n, y)) /\ get_model_ZA w2 k z a d = (d, Ok (n, y))) /\
  get_model_ZA w k z a (db_after ops1) = (d', Ok (n, y)).
Proof.
  intros HN H1 H2 HG. destruct (nuclide_decodes z a HN) as [D1 D2].
  assert (EQ : forall w d, get_model w k (nucleus_pid z a) d = find_model w k (nucleus_pid z a) z a d) by (intros w0 d; unfold get_model; rewrite D1, D2; destruct k; reflexivity).
  assert (EQ2 : forall w d, get_model_ZA w k z a d = find_model w k (nucleus_pid z a) z a d) by (intros w0 d; unfold get_model_ZA; destruct k; try reflexivity; apply EQ).
  rewrite EQ in HG. destruct (find_model_spec w k (nucleus_pid z a) z a (db_after ops1)) as (S1 & S2 & S3). rewrite HG in S1. destruct S1 as [S1 _].
  assert (OK : models_ok d').
  { destruct (models_step (db_after ops1) (DModelZA w k z a) HN) as [_ M]. cbn [dstep] in M. rewrite EQ2, HG in M. apply M. unfold db_after. destruct (models_run ops1 new_db H1) as [_ R]. apply R. intros k0 q0 n0 z0 a0 E. discriminate E. }
  split; [|split].
  - destruct y as [yz ya]. destruct (OK k _ n yz ya S1) as [-> ->]. rewrite D1, D2. reflexivity.
  - cbv zeta. rewrite EQ, EQ2. unfold find_model. rewrite (proj1 (models_run ops2 d' H2) _ _ _ S1). auto.
  - rewrite EQ2. exact HG.
Qed.
Print Assumptions C51_models.

(** ** What goes wrong *)

(** A scheme added after a failed lookup is lost: the null pointer kept for the nuclide stands
    in its way. *)
Definition bare_world : world := mkworld (mkfiles (fun _ => true) (fun _ => None) (fun p => if bytes_eqb p (Base.b "nuclide_index.txt") then index_text [(1000180410%Z, Base.b "Ar.dat")] else [])) [] false false (fun _ _ _ => Ok tt).
Theorem C51_add_after_failure_refuted : exists w p s, nameable p /\ snd (get_scheme w p (db_after [])) = Ok None /\
  snd (get_scheme w p (db_after [DGet w p; DAdd p (Some s)])) = Ok None.
Proof. exists bare_world, 1000180410%Z, (new_scheme 18 41). split; [split; [reflexivity|eexists; reflexivity]|]. split; vm_compute; reflexivity. Qed.
Print Assumptions C51_add_after_failure_refuted.

(** Replacing a scheme by one from a file that cannot be read loses the old one. *)
Theorem C51_failed_replace_refuted : exists w p s a, snd (get_scheme w p (db_after [DAdd p (Some s)])) = Ok (Some (a, s)) /\
  snd (get_scheme w p (db_after [DAdd p (Some s); DEmplace p (Er MarleyErr)])) = Ok None.
Proof. exists bare_world, 1000180410%Z, (new_scheme 18 41), 0%nat. split; vm_compute; reflexivity. Qed.
Print Assumptions C51_failed_replace_refuted.
