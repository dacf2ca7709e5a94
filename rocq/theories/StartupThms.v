(** Property C81: the search path and the mass table of a process. *)
From Coq Require Import List Ascii String ZArith Reals Bool Lia Lra.
From Coq Require Import Floats.SpecFloat.
From Flocq Require Import Core.Core IEEE754.BinarySingleNaN.
From Verif Require Import Base Dbl DblProofs Strings Pdg Json JsonSpec JsonThms React StringsThms Mass MassThms Config Startup.
From Verif Require Files FilesThms.
Import ListNotations.
Open Scope list_scope.

(** ** Vocabulary *)

(** The search path a process gets from its environment. *)
Definition search_path (w : world) (p : bytes) : Prop :=
  exists dir, w_env w (Base.b "MARLEY") = Some dir /\
    (w_env w (Base.b "MARLEY_SEARCH_PATH") = Some p \/
     (w_env w (Base.b "MARLEY_SEARCH_PATH") = None /\
      p = dir ++ Base.b "/data:" ++ dir ++ Base.b "/data/react:" ++ dir ++ Base.b "/data/structure")).

(** The number a JSON value stands for: the nearest double to an integer. *)
Definition stands_for (v : json) (x : R) : Prop :=
  match v with
  | JInt z => x = round radix2 (FLT_exp (-1074) 53) ZnearestE (IZR z)
  | JFlt f => is_finite_SF f = true /\ x = SF2R radix2 f
  | _ => False
  end.

(** A JSON value that gives the mass [x] to the particle code [k]. Codes are kept modulo
    2^32. *)
Definition entry (e : json) (k : Z) (x : R) : Prop :=
  exists l n v, e = JObj l /\ obj_get (Base.b "pdg") l = Some (JInt n) /\ obj_get (Base.b "mass") l = Some v /\ stands_for v x /\
    (- 2 ^ 31 <= k < 2 ^ 31 /\ (n - k) mod 2 ^ 32 = 0)%Z.

(** A member of an object that is an array of such values, not empty. *)
Definition mass_list (j : json) (key : string) (els : list json) : Prop :=
  exists l, j = JObj l /\ obj_get (Base.b key) l = Some (JArr els) /\ els <> [] /\ Forall (fun e => exists k x, entry e k x) els.

(** The mass that counts for a code: the one given last. *)
Definition last_mass (els : list json) (k : Z) (x : R) : Prop :=
  exists pre e post, els = pre ++ e :: post /\ entry e k x /\ Forall (fun e' => forall y, ~ entry e' k y) post.

(** No mass is infinite or not a number (as "1e400" and "0e400" are in a file): such masses
    are outside the model. *)
Definition finite_masses (j : json) : Prop :=
  forall key l els l' f, j = JObj l -> obj_get key l = Some (JArr els) -> In (JObj l') els -> obj_get (Base.b "mass") l' = Some (JFlt f) -> is_finite_SF f = true.

(** ** Lemmas *)

Lemma dbl_R_val x : dbl_R x = SF2R radix2 x.
Proof.
  destruct x as [s|s| |s m e]; cbn [dbl_R]; try reflexivity. rewrite SF2R_finite. unfold cond_R. rewrite bpow_powerRZ. change (IZR radix2) with 2%R. destruct s; lra.
Qed.

Lemma dbl_of_int_val z : (- 2 ^ 63 <= z < 2 ^ 63)%Z -> dbl_R (dbl_of_int z) = round radix2 (FLT_exp (-1074) 53) ZnearestE (IZR z).
Proof.
  intros Hz. rewrite dbl_R_val. unfold dbl_of_int.
  destruct (rnd64_correct (z <? 0)%Z (Z.abs z) 1) as (E & _); [lia|lia| |].
  - unfold Qr. apply Rle_lt_trans with (bpow radix2 64); [|apply bpow_lt; reflexivity].
    apply round_le_generic; [apply FLT_exp_valid; reflexivity|apply valid_rnd_N|apply generic_format_bpow; vm_compute; discriminate|].
    unfold Rdiv. rewrite Rinv_1, Rmult_1_r. change (bpow radix2 64) with (IZR (2 ^ 64)). apply IZR_le. lia.
  - rewrite E. unfold Qr, cond_R. unfold Rdiv. rewrite Rinv_1, Rmult_1_r. destruct (Z.ltb_spec z 0).
    + rewrite Z.abs_neq by lia. rewrite opp_IZR, round_NE_opp. ring.
    + rewrite Z.abs_eq by lia. reflexivity.
Qed.

Lemma to_int_iff n k : (- 2 ^ 31 <= k < 2 ^ 31 /\ (n - k) mod 2 ^ 32 = 0)%Z <-> k = to_int n.
Proof.
  unfold to_int. pose proof (Z.mod_pos_bound (n + 2 ^ 31) (2 ^ 32) ltac:(lia)) as B. split.
  - intros (H1 & H2). assert (E : ((n + 2 ^ 31) mod 2 ^ 32 = k + 2 ^ 31)%Z); [|lia].
    apply Z.mod_divide in H2; [|lia]. destruct H2 as (q & H2). replace (n + 2 ^ 31)%Z with (k + 2 ^ 31 + q * 2 ^ 32)%Z by lia.
    rewrite Z.mod_add by lia. apply Z.mod_small. lia.
  - intros ->. split; [lia|]. apply Z.mod_divide; [lia|]. exists ((n + 2 ^ 31) / 2 ^ 32)%Z. pose proof (Z.div_mod (n + 2 ^ 31) (2 ^ 32) ltac:(lia)). lia.
Qed.

Lemma obj_get_wf k l v : Forall (fun p => wf_json (snd p)) l -> obj_get k l = Some v -> wf_json v.
Proof.
  induction l as [|[k' v'] l IH]; cbn [obj_get]; [discriminate|]. intros F H. inversion F as [|? ? F1 F2]; subst.
  destruct (bytes_eqb k k'); [injection H as <-; exact F1|]. exact (IH F2 H).
Qed.

Lemma stands_unique v x y : stands_for v x -> stands_for v y -> x = y.
Proof. destruct v; cbn [stands_for]; try contradiction; intros; intuition congruence. Qed.

Lemma entry_unique e k x k' x' : entry e k x -> entry e k' x' -> k = k' /\ x = x'.
Proof.
  intros (l & n & v & -> & H1 & H2 & H3 & H4) (l' & n' & v' & E & H1' & H2' & H3' & H4'). injection E as <-.
  rewrite H1 in H1'. injection H1' as <-. rewrite H2 in H2'. injection H2' as <-.
  apply to_int_iff in H4. apply to_int_iff in H4'. split; [congruence|]. exact (stands_unique _ _ _ H3 H3').
Qed.

Lemma mass_entry_spec e : wf_json e -> (forall l f, e = JObj l -> obj_get (Base.b "mass") l = Some (JFlt f) -> is_finite_SF f = true) ->
  (exists k x, mass_entry e = Ok (k, x) /\ entry e k x) \/ (mass_entry e = Er MarleyErr /\ forall k x, ~ entry e k x).
Proof.
  intros W F. unfold mass_entry.
  destruct e as [| | | | | |l]; try (right; split; [reflexivity|]; intros kk xx (l' & n & vv & E & _); discriminate).
  unfold has_key, at_key. destruct (obj_get (b "pdg") l) as [p|] eqn:EP.
  2:{ right. split; [reflexivity|]. intros k x (l' & n & v & E & H & _). injection E as <-. congruence. }
  destruct (obj_get (b "mass") l) as [m|] eqn:EM.
  2:{ right. split; [reflexivity|]. intros k x (l' & n & v & E & _ & H & _). injection E as <-. congruence. }
  cbn [negb bind]. inversion W as [| | | | | |? _ W2]; subst.
  destruct p as [|?|n|?|?|?|?] eqn:Ep;
    try (right; split; [reflexivity|]; intros kk xx (l' & nn & vv & E & H & _); injection E as <-; congruence).
  cbn [to_long negb].
  pose proof (obj_get_wf _ _ _ W2 EM) as WM.
  destruct m as [|?|z|f|?|?|?] eqn:Em; cbn [to_double negb];
    try (right; split; [reflexivity|]; intros kk xx (l' & nn & vv & E & _ & H & H' & _); injection E as <-; rewrite EM in H; injection H as <-; exact H').
  - left. exists (to_int n), (dbl_R (dbl_of_int z)). split; [reflexivity|]. exists l, n, (JInt z). repeat (split; [first [reflexivity|assumption]|]).
    split; [|apply to_int_iff; reflexivity]. cbn [stands_for]. apply dbl_of_int_val. inversion WM as [| |? L| | | |]; subst. unfold is_long, long_min, long_max in L. lia.
  - left. exists (to_int n), (dbl_R f). split; [reflexivity|]. exists l, n, (JFlt f). repeat (split; [first [reflexivity|assumption]|]).
    split; [|apply to_int_iff; reflexivity]. cbn [stands_for]. split; [|apply dbl_R_val]. exact (F l f eq_refl EM).
Qed.

Definition finite_els (els : list json) : Prop :=
  forall l f, In (JObj l) els -> obj_get (Base.b "mass") l = Some (JFlt f) -> is_finite_SF f = true.

Lemma map_entries els : Forall wf_json els -> finite_els els ->
  (exists es, map_res mass_entry els = Ok es /\ Forall2 (fun e p => entry e (fst p) (snd p)) els es) \/
  (map_res mass_entry els = Er MarleyErr /\ ~ Forall (fun e => exists k x, entry e k x) els).
Proof.
  induction els as [|e els IH]; intros W F; [left; exists []; split; [reflexivity|constructor]|].
  inversion W as [|? ? W1 W2]; subst. cbn [map_res].
  destruct (mass_entry_spec e W1) as [(k & x & -> & H)|[-> H]].
  { intros l f -> E. apply (F l f); [left; reflexivity|exact E]. }
  2:{ right. split; [reflexivity|]. intros A. inversion A as [|? ? (k & x & A1) _]; subst. exact (H k x A1). }
  cbn [bind]. destruct (IH W2) as [(es & -> & H2)|[-> H2]].
  { intros l f I1. apply F. right. exact I1. }
  - left. exists ((k, x) :: es). split; [reflexivity|]. constructor; assumption.
  - right. split; [reflexivity|]. intros A. inversion A; subst. contradiction.
Qed.

Lemma last_iff els es k x : Forall2 (fun e p => entry e (fst p) (snd p)) els es ->
  (last_mass els k x <-> assoc k (assign_masses es []) = Some x).
Proof.
  intros H. rewrite C49_assign. cbn [assoc]. replace (match assoc k (rev es) with Some v => Some v | None => None end) with (assoc k (rev es)) by (destruct (assoc k (rev es)); reflexivity).
  assert (N : forall els es, Forall2 (fun e p => entry e (fst p) (snd p)) els es -> (Forall (fun e => forall y, ~ entry e k y) els <-> assoc k (rev es) = None)).
  { clear. assert (A : forall l1 l2 : list (Z * R), assoc k (l1 ++ l2) = match assoc k l1 with Some v => Some v | None => assoc k l2 end).
    { induction l1 as [|[k' v] l1 IH]; intros l2; [reflexivity|]. cbn [app assoc]. destruct (Z.eqb k k'); [reflexivity|apply IH]. }
    intros els es H. induction H as [|e [k' x'] els es H1 H2 IH]; [split; [reflexivity|constructor]|]. cbn [rev]. rewrite A. cbn [assoc]. cbn [fst snd] in H1. split.
    - intros F. inversion F as [|? ? F1 F2]; subst. apply IH in F2. rewrite F2. destruct (Z.eqb_spec k k') as [->|]; [|reflexivity]. destruct (F1 _ H1).
    - intros E. destruct (assoc k (rev es)) eqn:E1; [discriminate|]. constructor; [|apply IH; reflexivity].
      intros y Hy. destruct (entry_unique _ _ _ _ _ Hy H1) as (-> & _). rewrite Z.eqb_refl in E. discriminate. }
  assert (A : forall l1 l2 : list (Z * R), assoc k (l1 ++ l2) = match assoc k l1 with Some v => Some v | None => assoc k l2 end).
  { induction l1 as [|[k' v] l1 IH]; intros l2; [reflexivity|]. cbn [app assoc]. destruct (Z.eqb k k'); [reflexivity|apply IH]. }
  split.
  - intros (pre & e & post & -> & H1 & H2). apply Forall2_app_inv_l in H. destruct H as (es1 & es2 & _ & H & ->).
    inversion H as [|? [k' x'] ? es3 H3 H4]; subst. cbn [fst snd] in H3. destruct (entry_unique _ _ _ _ _ H1 H3) as (<- & <-).
    rewrite rev_app_distr. cbn [rev]. rewrite !A. rewrite (proj1 (N _ _ H4) H2). cbn [assoc]. rewrite Z.eqb_refl. reflexivity.
  - induction H as [|e [k' x'] els es H1 H2 IH]; [discriminate|]. cbn [rev]. rewrite A. cbn [assoc]. cbn [fst snd] in H1.
    destruct (assoc k (rev es)) eqn:E1.
    + intros E. injection E as ->. destruct (IH eq_refl) as (pre & e0 & post & -> & P). exists (e :: pre), e0, post. split; [reflexivity|exact P].
    + destruct (Z.eqb_spec k k') as [->|]; [|discriminate]. intros E. injection E as ->. exists [], e, els. split; [reflexivity|]. split; [exact H1|].
      apply (N _ _ H2). exact E1.
Qed.

(** ** Theorems *)

(** Without the variable MARLEY no file can be looked for and no mass table made: the
    process gets a marley::Error. With it, the search path is MARLEY_SEARCH_PATH if that is
    set (even to nothing), and otherwise the three data folders below MARLEY. *)
Theorem C81_path w : (forall p, new_file_manager w = Ok p <-> search_path w p) /\
  (new_file_manager w = Er MarleyErr <-> w_env w (Base.b "MARLEY") = None) /\
  (forall e, new_file_manager w = Er e -> e = MarleyErr).
Proof.
  unfold new_file_manager, search_path. destruct (w_env w (Base.b "MARLEY")) as [dir|].
  2:{ split; [|split; [tauto|congruence]]. intros p. split; [discriminate|]. intros (d & H & _). discriminate. }
  split; [|split; [|intros e; destruct (w_env w _); discriminate]].
  2:{ destruct (w_env w _); split; discriminate. }
  intros p. destruct (w_env w (Base.b "MARLEY_SEARCH_PATH")) as [q|].
  - split.
    + intros E. injection E as ->. exists dir. split; [reflexivity|]. left. reflexivity.
    + intros (d & E & [H|[H _]]); [injection H as ->; reflexivity|discriminate].
  - assert (X : ((dir ++ Base.b "/data") ++ Base.b ":" ++ dir ++ Base.b "/data/react") ++ Base.b ":" ++ dir ++ Base.b "/data/structure" =
      dir ++ Base.b "/data:" ++ dir ++ Base.b "/data/react:" ++ dir ++ Base.b "/data/structure").
    { change (Base.b "/data:") with (Base.b "/data" ++ Base.b ":"). change (Base.b "/data/react:") with (Base.b "/data/react" ++ Base.b ":"). rewrite <- !app_assoc. reflexivity. }
    rewrite X. split.
    + intros E. injection E as <-. exists dir. split; [reflexivity|]. right. split; reflexivity.
    + intros (d & E & [H|[_ H]]); [discriminate|]. injection E as <-. rewrite H. reflexivity.
Qed.
Print Assumptions C81_path.

(** If MARLEY names a folder without a colon and no search path is set, a name that is not
    there as it is given is looked for in the folders data, data/react and data/structure
    below it, in this order. *)
Theorem C81_folders w dir p fs base : w_env w (Base.b "MARLEY") = Some dir -> w_env w (Base.b "MARLEY_SEARCH_PATH") = None -> ~ In ":"%char dir ->
  search_path w p -> Files.find_file fs base p = Files.find_file_dirs fs base [dir ++ Base.b "/data"; dir ++ Base.b "/data/react"; dir ++ Base.b "/data/structure"].
Proof.
  intros H1 H2 N (d & E & [H|[_ ->]]); [congruence|]. rewrite H1 in E. injection E as <-. unfold Files.find_file. f_equal.
  pose proof (C52_join ":"%char [dir ++ Base.b "/data"; dir ++ Base.b "/data/react"] (dir ++ Base.b "/data/structure")) as J.
  assert (G : forall t, ~ In ":"%char t -> ~ In ":"%char (dir ++ t)). { intros t T I1. apply in_app_iff in I1. tauto. }
  cbn [app] in J. rewrite <- J.
  - f_equal. cbn [join]. change (Base.b "/data:") with (Base.b "/data" ++ [":"%char]). change (Base.b "/data/react:") with (Base.b "/data/react" ++ [":"%char]). rewrite <- !app_assoc. reflexivity.
  - repeat constructor; apply G; intros I1; vm_compute in I1; intuition discriminate.
  - destruct dir; discriminate.
Qed.
Print Assumptions C81_folders.

(** With a colon in its name that folder is not found. *)
Theorem C81_folders_colon_refuted : exists w dir p fs base,
  w_env w (Base.b "MARLEY") = Some dir /\ w_env w (Base.b "MARLEY_SEARCH_PATH") = None /\ search_path w p /\
  FilesThms.holds fs (dir ++ Base.b "/data") base /\ Files.find_file fs base p = [].
Proof.
  exists (mkworld (fun v => if Json.bytes_eqb v (Base.b "MARLEY") then Some (Base.b "/opt/a:b") else None) (Files.mkfiles (fun _ => false) (fun _ => None) (fun _ => []))), (Base.b "/opt/a:b").
  eexists. exists (Files.mkfiles (fun _ => false) (fun d => if Json.bytes_eqb d (Base.b "/opt/a:b/data") then Some [(Base.b "x", Some true)] else None) (fun _ => [])), (Base.b "x").
  split; [reflexivity|]. split; [reflexivity|]. split; [eexists; split; [reflexivity|right; split; reflexivity]|]. split; [|vm_compute; reflexivity].
  exists [(Base.b "x", Some true)]. split; [reflexivity|left; reflexivity].
Qed.
Print Assumptions C81_folders_colon_refuted.

Lemma loaded_list s j key els : Json.load s = Ok j -> finite_masses j -> (exists l, j = JObj l /\ obj_get key l = Some (JArr els)) -> Forall wf_json els /\ finite_els els.
Proof.
  intros L F (l & -> & E). split.
  - apply C56_loaded_wf in L. inversion L as [| | | | | |? _ W]; subst. pose proof (obj_get_wf _ _ _ W E) as WA. inversion WA; subst. assumption.
  - intros l' f I1 E1. exact (F key l els l' f eq_refl E I1 E1).
Qed.

Lemma read_masses_spec s j key l v : Json.load s = Ok j -> finite_masses j -> j = JObj l -> obj_get (Base.b key) l = Some v ->
  (exists els m, read_masses v = Ok m /\ mass_list j key els /\ forall k x, last_mass els k x <-> assoc k m = Some x) \/
  (read_masses v = Er MarleyErr /\ forall els, ~ mass_list j key els).
Proof.
  intros L F -> E.
  assert (N : forall els, mass_list (JObj l) key els -> v = JArr els /\ els <> [] /\ Forall (fun e => exists k x, entry e k x) els).
  { intros els (l' & E1 & E2 & E3). injection E1 as <-. rewrite E in E2. injection E2 as ->. split; [reflexivity|exact E3]. }
  destruct v as [| | | | |els|]; try (right; split; [reflexivity|]; intros els M; destruct (N els M) as (X & _); discriminate).
  destruct els as [|e0 els0]; [right; split; [reflexivity|]; intros els M; destruct (N els M) as (X & Y & _); congruence|].
  unfold read_masses. set (els := e0 :: els0) in *. destruct (loaded_list s _ (Base.b key) els L F) as [W FE]; [exists l; split; [reflexivity|exact E]|].
  destruct (map_entries els W FE) as [(es & -> & H)|[-> H]].
  - left. exists els, (assign_masses es []). split; [reflexivity|]. split; [|intros k x; apply last_iff; exact H].
    exists l. split; [reflexivity|]. split; [exact E|]. split; [unfold els; discriminate|]. clear -H. induction H as [|e p els es H1 H2 IH]; constructor; [exists (fst p), (snd p); exact H1|exact IH].
  - right. split; [reflexivity|]. intros els' M. destruct (N els' M) as (X & _ & Y). injection X as <-. exact (H Y).
Qed.

Lemma mass_list_fun j key e1 e2 : mass_list j key e1 -> mass_list j key e2 -> e1 = e2.
Proof. intros (l & -> & E & _) (l' & X & E' & _). injection X as <-. rewrite E in E'. injection E' as <-. reflexivity. Qed.

(** The mass table is made exactly if a mass table file is found, is loaded, and has the two
    lists of masses, each with at least one entry and every entry with an integer code and a
    number. Otherwise there is a marley::Error, or the exception of loading the file. *)
Theorem C81_loads path fs : let name := Files.find_file fs (Base.b "mass_table.js") path in
  (name = [] -> new_mass_table path fs = Er MarleyErr) /\
  (name <> [] -> forall e, Json.load (Files.f_text fs name) = Er e -> new_mass_table path fs = Er e) /\
  (name <> [] -> forall j, Json.load (Files.f_text fs name) = Ok j -> finite_masses j ->
    (forall t, new_mass_table path fs = Ok t -> exists parts atoms, mass_list j "particle_masses" parts /\ mass_list j "atomic_masses" atoms) /\
    (forall parts atoms, mass_list j "particle_masses" parts -> mass_list j "atomic_masses" atoms -> exists t, new_mass_table path fs = Ok t) /\
    (forall e, new_mass_table path fs = Er e -> e = MarleyErr)).
Proof.
  cbv zeta. unfold new_mass_table. fold mass_file. set (name := Files.find_file fs mass_file path). split; [intros ->; reflexivity|]. split.
  - intros N e E. destruct name as [|c r]; [congruence|]. rewrite E. reflexivity.
  - intros N j E F. destruct name as [|c r] eqn:EN; [congruence|]. rewrite <- EN in *. clear EN c r. rewrite E. cbn [bind].
    assert (D : (exists parts atoms t, new_mass_table path fs = Ok t /\ mass_list j "particle_masses" parts /\ mass_list j "atomic_masses" atoms) \/
                (new_mass_table path fs = Er MarleyErr /\ forall parts atoms, mass_list j "particle_masses" parts -> mass_list j "atomic_masses" atoms -> False)).
    { unfold new_mass_table. fold name. destruct name as [|c r] eqn:EN; [congruence|]. rewrite <- EN in *. clear EN c r. rewrite E. cbn [bind].
      destruct j as [| | | | | |l]; try (right; split; [reflexivity|]; intros pp aa (ll & XX & _); discriminate).
      unfold has_key, at_key. destruct (obj_get (b "particle_masses") l) as [pj|] eqn:E1.
      2:{ right. split; [reflexivity|]. intros p a (l' & X & Y & _). injection X as <-. congruence. }
      cbn [negb bind]. destruct (read_masses_spec _ _ "particle_masses" l pj E F eq_refl E1) as [(parts & m1 & -> & M1 & _)|[-> X]].
      2:{ right. split; [reflexivity|]. intros p a Y. destruct (X p Y). }
      cbn [bind]. destruct (obj_get (b "atomic_masses") l) as [aj|] eqn:E2.
      2:{ right. split; [reflexivity|]. intros p a _ (l' & X & Y & _). injection X as <-. congruence. }
      cbn [negb bind]. destruct (read_masses_spec _ _ "atomic_masses" l aj E F eq_refl E2) as [(atoms & m2 & -> & M2 & _)|[-> X]].
      2:{ right. split; [reflexivity|]. intros p a _ Y. destruct (X a Y). }
      left. exists parts, atoms. eexists. split; [reflexivity|]. split; assumption. }
    unfold new_mass_table in D. fold name in D. destruct name as [|c r] eqn:EN; [congruence|]. rewrite <- EN in *. clear EN c r. rewrite E in D. cbn [bind] in D.
    destruct D as [(parts & atoms & t & D & M1 & M2)|[D X]]; rewrite D.
    + split; [intros t' _; exists parts, atoms; split; assumption|]. split; [intros p a _ _; exists t; reflexivity|discriminate].
    + split; [discriminate|]. split; [intros p a Y1 Y2; destruct (X p a Y1 Y2)|congruence].
Qed.
Print Assumptions C81_loads.

(** A mass table that was made gives every particle and atom the mass that is given last for
    its code in the file, in MeV; antiparticles have the masses of particles. Other particles
    have no mass, and other atoms have none unless an estimate is allowed. *)
Theorem C81_masses path fs j parts atoms t : new_mass_table path fs = Ok t ->
  Json.load (Files.f_text fs (Files.find_file fs (Base.b "mass_table.js") path)) = Ok j -> finite_masses j ->
  mass_list j "particle_masses" parts -> mass_list j "atomic_masses" atoms ->
  (forall id m, particle_mass t id = Ok m <-> exists x, last_mass parts (Z.abs id) x /\ m = x * (931494061 / 1000000000000)) /\
  (forall id e, particle_mass t id = Er e <-> (forall x, ~ last_mass parts (Z.abs id) x) /\ e = StdRange) /\
  (forall id th x, last_mass atoms id x -> atomic_mass t id th = Ok (x * (931494061 / 1000000000000))) /\
  (forall id, (forall x, ~ last_mass atoms id x) -> atomic_mass t id false = Er MarleyErr).
Proof.
  intros H E F P A. unfold new_mass_table in H. fold mass_file in E. set (name := Files.find_file fs mass_file path) in *.
  destruct name as [|c r] eqn:EN; [discriminate|]. rewrite <- EN in *. clear EN c r. rewrite E in H. cbn [bind] in H.
  destruct P as (l & -> & EP & P). destruct A as (l' & X & EA & A). injection X as <-.
  unfold has_key, at_key in H. rewrite EP, EA in H. cbn [negb bind] in H.
  destruct (read_masses_spec _ _ "particle_masses" l _ E F eq_refl EP) as [(parts' & m1 & R1 & M1 & S1)|[_ X]].
  2:{ destruct (X parts). exists l. auto. }
  destruct (read_masses_spec _ _ "atomic_masses" l _ E F eq_refl EA) as [(atoms' & m2 & R2 & M2 & S2)|[_ X]].
  2:{ destruct (X atoms). exists l. auto. }
  assert (parts' = parts) as -> by (eapply mass_list_fun; [exact M1|exists l; auto]).
  assert (atoms' = atoms) as -> by (eapply mass_list_fun; [exact M2|exists l; auto]).
  rewrite R1, R2 in H. cbn [bind] in H. injection H as <-. change (931494061 / 1000000000000)%R with micro_amu.
  assert (AB : forall id, (if (id <? 0)%Z then (id * -1)%Z else id) = Z.abs id). { intros id. destruct (Z.ltb_spec id 0); lia. }
  split; [|split; [|split]].
  - intros id m. unfold particle_mass. rewrite AB. unfold part_at. cbn [t_part]. destruct (assoc (Z.abs id) m1) as [x|] eqn:EX; cbn [bind].
    + split; [intros Y; injection Y as <-; exists x; split; [apply S1; exact EX|ring]|]. intros (x' & Y & ->). apply S1 in Y. rewrite EX in Y. injection Y as <-. f_equal. ring.
    + split; [discriminate|]. intros (x' & Y & _). apply S1 in Y. congruence.
  - intros id e. unfold particle_mass. rewrite AB. unfold part_at. cbn [t_part]. destruct (assoc (Z.abs id) m1) as [x|] eqn:EX; cbn [bind].
    + split; [discriminate|]. intros (Y & _). destruct (Y x). apply S1. exact EX.
    + split; [|intros (_ & ->); reflexivity]. intros Y. injection Y as <-. split; [|reflexivity]. intros x Y. apply S1 in Y. congruence.
  - intros id th x Y. apply S2 in Y. unfold atomic_mass, lookup_pdg. cbn [t_atom]. rewrite Y. reflexivity.
  - intros id Y. unfold atomic_mass, lookup_pdg. cbn [t_atom]. destruct (assoc id m2) as [x|] eqn:EX; [|reflexivity]. destruct (Y x). apply S2. exact EX.
Qed.
Print Assumptions C81_masses.

(** *** Histories *)

(** The world in which a request is made, and the answer of a process that has no search
    path. *)
Definition world_of (q : request) : world := match q with AskFile _ w | AskMasses w => w end.
Definition refused (q : request) : answer := match q with AskFile _ _ => Found (Er MarleyErr) | AskMasses _ => Masses (Er MarleyErr) end.

Lemma serve_all_snoc qs q s : serve_all (qs ++ [q]) s =
  (fst (serve_all qs s) ++ [fst (serve q (snd (serve_all qs s)))], snd (serve q (snd (serve_all qs s)))).
Proof.
  revert s. induction qs as [|q0 qs IH]; intros s; cbn [app serve_all fst snd].
  - destruct (serve q s). reflexivity.
  - destruct (serve q0 s) as [a s1]. rewrite IH. destruct (serve_all qs s1). reflexivity.
Qed.

Lemma serve_all_app qs1 qs2 s : serve_all (qs1 ++ qs2) s =
  (fst (serve_all qs1 s) ++ fst (serve_all qs2 (snd (serve_all qs1 s))), snd (serve_all qs2 (snd (serve_all qs1 s)))).
Proof.
  revert s. induction qs1 as [|q0 qs IH]; intros s; cbn [app serve_all fst snd].
  - destruct (serve_all qs2 s). reflexivity.
  - destruct (serve q0 s) as [a s1]. rewrite IH. destruct (serve_all qs s1). reflexivity.
Qed.

Lemma serve_all_length qs s : List.length (fst (serve_all qs s)) = List.length qs.
Proof.
  revert s. induction qs as [|q0 qs IH]; intros s; [reflexivity|]. cbn [serve_all]. destruct (serve q0 s) as [a s1]. specialize (IH s1).
  destruct (serve_all qs s1). cbn [fst List.length] in *. congruence.
Qed.

(** The search path of the first world that has one, and the first mass table. *)
Fixpoint first_path (qs : list request) : option bytes :=
  match qs with [] => None | q :: r => match new_file_manager (world_of q) with Ok p => Some p | Er _ => first_path r end end.
Fixpoint first_table (l : list answer) : option mtab :=
  match l with [] => None | Masses (Ok t) :: _ => Some t | _ :: r => first_table r end.

Lemma first_path_app l1 l2 : first_path (l1 ++ l2) = match first_path l1 with Some p => Some p | None => first_path l2 end.
Proof. induction l1 as [|q l1 IH]; [reflexivity|]. cbn [app first_path]. destruct (new_file_manager (world_of q)); [reflexivity|exact IH]. Qed.
Lemma first_table_app l1 l2 : first_table (l1 ++ l2) = match first_table l1 with Some p => Some p | None => first_table l2 end.
Proof. induction l1 as [|q l1 IH]; [reflexivity|]. cbn [app first_table]. destruct q as [|[?|?]]; [exact IH|reflexivity|exact IH]. Qed.

Lemma state_after qs : snd (serve_all qs fresh) = mksing (first_path qs) (first_table (fst (serve_all qs fresh))) /\
  (first_path qs = None -> first_table (fst (serve_all qs fresh)) = None).
Proof.
  induction qs as [|q qs [IH1 IH2]] using rev_ind; [split; reflexivity|]. rewrite serve_all_snoc, IH1. cbn [fst snd].
  rewrite first_path_app, first_table_app. set (P := first_path qs) in *. set (T := first_table (fst (serve_all qs fresh))) in *. clearbody P T. clear IH1.
  cbn [first_path]. destruct q as [base w|w]; cbn [serve world_of]; unfold mass_table, file_manager; cbn [s_path s_masses].
  - destruct P as [p|].
    + cbn [fst snd first_table]. destruct T; (split; [reflexivity|discriminate]).
    + rewrite (IH2 eq_refl). destruct (new_file_manager w) as [p|e]; cbn [fst snd first_table s_path s_masses]; split; try reflexivity; try discriminate.
  - destruct T as [t|].
    + cbn [fst snd first_table]. destruct P as [p|]; [split; [reflexivity|discriminate]|]. discriminate (IH2 eq_refl).
    + destruct P as [p|].
      * cbn [s_path s_masses fst snd]. destruct (new_mass_table p (w_files w)); cbn [fst snd first_table]; (split; [reflexivity|discriminate]).
      * destruct (new_file_manager w) as [p|e]; cbn [fst snd first_table s_path s_masses].
        -- destruct (new_mass_table p (w_files w)); cbn [fst snd first_table]; (split; [reflexivity|discriminate]).
        -- split; reflexivity.
Qed.

Lemma first_path_none qs : first_path qs = None <-> Forall (fun q => w_env (world_of q) (Base.b "MARLEY") = None) qs.
Proof.
  induction qs as [|q qs IH]; [split; [constructor|reflexivity]|]. cbn [first_path]. destruct (C81_path (world_of q)) as (H1 & H2 & H3).
  destruct (new_file_manager (world_of q)) as [p|e].
  - split; [discriminate|]. intros F. inversion F as [|? ? F1 _]; subst. apply H2 in F1. discriminate.
  - pose proof (H3 e eq_refl) as ->. rewrite IH. split; [intros F; constructor; [apply H2; reflexivity|exact F]|]. intros F. inversion F; subst. assumption.
Qed.

Lemma first_table_none l : first_table l = None <-> forall t, ~ In (Masses (Ok t)) l.
Proof.
  induction l as [|a l IH]; [split; [intros _ t []|reflexivity]|]. cbn [first_table]. destruct a as [r|[t|e]].
  - rewrite IH. split; intros H t; [intros [X|X]; [discriminate|exact (H t X)]|]. intros X. apply (H t). right. exact X.
  - split; [discriminate|]. intros H. destruct (H t). left. reflexivity.
  - rewrite IH. split; intros H t; [intros [X|X]; [discriminate|exact (H t X)]|]. intros X. apply (H t). right. exact X.
Qed.
Lemma first_table_in l t : first_table l = Some t -> In (Masses (Ok t)) l.
Proof.
  induction l as [|a l IH]; [discriminate|]. cbn [first_table]. destruct a as [r|[t'|e]]; intros H; [right; apply IH; exact H| |right; apply IH; exact H].
  injection H as ->. left. reflexivity.
Qed.

(** What a process is told at any point of any history. Let [before] be the earlier requests
    and [told] their answers. If no request so far was made with MARLEY set, the answer is a
    marley::Error. Otherwise the first request made with MARLEY set fixes the search path,
    whatever the environment is later. A file is looked for with this path in the present file
    system. The mass table is the one that was given before, if there is one, and otherwise
    made from the present files: a failure is not remembered. *)
Theorem C81_history before q : let told := fst (serve_all before fresh) in
  exists a, fst (serve_all (before ++ [q]) fresh) = told ++ [a] /\ List.length told = List.length before /\
  (Forall (fun q => w_env (world_of q) (Base.b "MARLEY") = None) (before ++ [q]) -> a = refused q) /\
  (forall pre q1 post p, before ++ [q] = pre ++ q1 :: post -> Forall (fun q => w_env (world_of q) (Base.b "MARLEY") = None) pre -> search_path (world_of q1) p ->
    match q with
    | AskFile base w => a = Found (Ok (Files.find_file (w_files w) base p))
    | AskMasses w => (exists t, In (Masses (Ok t)) told /\ a = Masses (Ok t)) \/
                     ((forall t, ~ In (Masses (Ok t)) told) /\ a = Masses (new_mass_table p (w_files w)))
    end).
Proof.
  cbv zeta. destruct (state_after before) as [S1 S2]. rewrite serve_all_snoc, S1. set (told := fst (serve_all before fresh)) in *.
  exists (fst (serve q (mksing (first_path before) (first_table told)))). split; [reflexivity|]. split; [apply serve_all_length|]. split.
  - intros F. apply Forall_app in F. destruct F as [F1 F2]. apply first_path_none in F1. apply first_path_none in F2.
    rewrite (S2 F1), F1. cbn [first_path] in F2. destruct (C81_path (world_of q)) as (_ & _ & H3).
    destruct q as [base w|w]; cbn [serve world_of refused] in *; unfold mass_table, file_manager; cbn [s_path s_masses];
      (destruct (new_file_manager w) as [p|e]; [discriminate|]); rewrite (H3 e eq_refl); reflexivity.
  - intros pre q1 post p E F SP. apply (proj1 (C81_path (world_of q1))) in SP. apply first_path_none in F.
    assert (P : first_path (before ++ [q]) = Some p). { rewrite E, first_path_app, F. cbn [first_path]. rewrite SP. reflexivity. }
    rewrite first_path_app in P. destruct q as [base w|w]; cbn [serve]; unfold mass_table, file_manager; cbn [s_path s_masses].
    + destruct (first_path before) as [p'|].
      * injection P as ->. reflexivity.
      * cbn [first_path world_of] in P. destruct (new_file_manager w); [injection P as ->; reflexivity|discriminate].
    + destruct (first_table told) as [t|] eqn:ET.
      * left. exists t. split; [apply first_table_in; exact ET|reflexivity].
      * right. split; [apply first_table_none; exact ET|]. destruct (first_path before) as [p'|].
        -- injection P as ->. destruct (new_mass_table p (w_files w)); reflexivity.
        -- cbn [first_path world_of] in P. destruct (new_file_manager w); [injection P as ->|discriminate]. destruct (new_mass_table p (w_files w)); reflexivity.
Qed.
Print Assumptions C81_history.

(** Every mass table a process is given in its life is the same. *)
Theorem C81_once qs t t' : In (Masses (Ok t)) (fst (serve_all qs fresh)) -> In (Masses (Ok t')) (fst (serve_all qs fresh)) -> t = t'.
Proof.
  revert t t'. assert (G : forall t, In (Masses (Ok t)) (fst (serve_all qs fresh)) -> first_table (fst (serve_all qs fresh)) = Some t).
  2:{ intros t t' H1 H2. apply G in H1. apply G in H2. congruence. }
  induction qs as [|q qs IH] using rev_ind; [intros t []|]. intros t. destruct (C81_history qs q) as (a & E & _ & _). rewrite serve_all_snoc in *. cbn [fst] in *.
  rewrite first_table_app. destruct (state_after qs) as [S1 _]. rewrite S1 in *. set (told := fst (serve_all qs fresh)) in *. intros I1. apply in_app_iff in I1. destruct I1 as [I1|[I1|[]]].
  - rewrite (IH t I1). reflexivity.
  - destruct (first_table told) as [t0|] eqn:ET; [|rewrite I1; reflexivity]. f_equal. destruct q as [base w|w]; cbn [serve] in I1; unfold mass_table, file_manager in I1; cbn [s_path s_masses] in I1.
    + destruct (first_path qs); [discriminate|]. destruct (new_file_manager w); discriminate.
    + cbn [fst] in I1. congruence.
Qed.
Print Assumptions C81_once.

(** A process that first has no MARLEY, then no mass table file, then finds one below MARLEY
    in which the electron is given twice, and later runs with other variables. *)
Definition case_text : bytes := Base.b "{ particle_masses: [ { pdg: 11, mass: 7 }, { pdg: 11, mass: 548.5 } ], // last
  atomic_masses: [ { pdg: 1000180400, mass: 39962383 } ] }".
Definition case_env (v : bytes) : option bytes := if Json.bytes_eqb v (Base.b "MARLEY") then Some (Base.b "/m") else None.
Definition case_files : Files.files :=
  Files.mkfiles (fun _ => false) (fun d => if Json.bytes_eqb d (Base.b "/m/data") then Some [(Base.b "mass_table.js", Some true)] else None)
    (fun n => if Json.bytes_eqb n (Base.b "/m/data/mass_table.js") then case_text else []).
Definition no_files : Files.files := Files.mkfiles (fun _ => false) (fun _ => None) (fun _ => []).

Lemma case_loaded : exists f, is_finite_SF f = true /\ SF2R radix2 f = 1097 / 2 /\ Json.load case_text = Ok (JObj
  [(Base.b "atomic_masses", JArr [JObj [(Base.b "mass", JInt 39962383); (Base.b "pdg", JInt 1000180400)]]);
   (Base.b "particle_masses", JArr [JObj [(Base.b "mass", JInt 7); (Base.b "pdg", JInt 11)]; JObj [(Base.b "mass", JFlt f); (Base.b "pdg", JInt 11)]])]).
Proof.
  exists (S754_finite false 4824657022681088 (-43)). split; [reflexivity|]. split; [|vm_compute; reflexivity].
  unfold SF2R, F2R. cbn [Fnum Fexp cond_Zopp]. change (bpow radix2 (-43)) with (/ IZR (2 ^ 43))%R. change (2 ^ 43)%Z with 8796093022208%Z. lra.
Qed.

Example C81_case : exists t m, let w := mkworld case_env case_files in
  fst (serve_all [AskMasses (mkworld (fun _ => None) case_files); AskMasses (mkworld case_env no_files); AskMasses w;
                  AskMasses (mkworld (fun _ => None) no_files); AskFile (Base.b "mass_table.js") (mkworld (fun _ => None) case_files)] fresh) =
    [Masses (Er MarleyErr); Masses (Er MarleyErr); Masses (Ok t); Masses (Ok t); Found (Ok (Base.b "/m/data/mass_table.js"))] /\
  particle_mass t (-11) = Ok m /\ m = 1097 / 2 * (931494061 / 1000000000000) /\ particle_mass t 13 = Er StdRange.
Proof.
  destruct case_loaded as (f & FF & FV & L). set (p := Base.b "/m/data:/m/data/react:/m/data/structure").
  assert (EF : Files.find_file case_files (Base.b "mass_table.js") p = Base.b "/m/data/mass_table.js") by (vm_compute; reflexivity).
  assert (LL : Json.load (Files.f_text case_files (Files.find_file case_files (Base.b "mass_table.js") p)) = Json.load case_text) by (rewrite EF; reflexivity).
  rewrite L in LL. match type of LL with _ = Ok ?x => set (j := x) in LL end.
  assert (FM : finite_masses j).
  { intros key l els l' g E1 E2 I1 E3. unfold j in E1. injection E1 as <-. cbn [obj_get] in E2.
    destruct (Json.bytes_eqb key _); [injection E2 as <-; destruct I1 as [I1|[]]; injection I1 as <-; vm_compute in E3; discriminate|].
    destruct (Json.bytes_eqb key _); [|discriminate]. injection E2 as <-. destruct I1 as [I1|[I1|[]]]; injection I1 as <-; cbn in E3; [discriminate|]. injection E3 as <-. exact FF. }
  assert (P : mass_list j "particle_masses" [JObj [(Base.b "mass", JInt 7); (Base.b "pdg", JInt 11)]; JObj [(Base.b "mass", JFlt f); (Base.b "pdg", JInt 11)]]).
  { eexists. split; [reflexivity|]. split; [reflexivity|]. split; [discriminate|]. constructor; [|constructor; [|constructor]].
    - exists 11%Z. eexists. eexists. exists 11%Z. eexists. split; [reflexivity|]. split; [reflexivity|]. split; [reflexivity|]. split; [reflexivity|]. split; [lia|reflexivity].
    - exists 11%Z. eexists. eexists. exists 11%Z. eexists. split; [reflexivity|]. split; [reflexivity|]. split; [reflexivity|]. split; [split; [exact FF|reflexivity]|]. split; [lia|reflexivity]. }
  assert (A : mass_list j "atomic_masses" [JObj [(Base.b "mass", JInt 39962383); (Base.b "pdg", JInt 1000180400)]]).
  { eexists. split; [reflexivity|]. split; [reflexivity|]. split; [discriminate|]. constructor; [|constructor].
    exists 1000180400%Z. eexists. eexists. exists 1000180400%Z. eexists. split; [reflexivity|]. split; [reflexivity|]. split; [reflexivity|]. split; [reflexivity|]. split; [lia|reflexivity]. }
  destruct (C81_loads p case_files) as (_ & _ & H). destruct (H ltac:(rewrite EF; discriminate) j LL FM) as (_ & H2 & _).
  destruct (H2 _ _ P A) as (t & T). clear H H2.
  destruct (C81_masses p case_files j _ _ t T LL FM P A) as (M1 & M2 & _).
  assert (LM : last_mass [JObj [(Base.b "mass", JInt 7); (Base.b "pdg", JInt 11)]; JObj [(Base.b "mass", JFlt f); (Base.b "pdg", JInt 11)]] 11 (1097 / 2)).
  { exists [JObj [(Base.b "mass", JInt 7); (Base.b "pdg", JInt 11)]], (JObj [(Base.b "mass", JFlt f); (Base.b "pdg", JInt 11)]), []. split; [reflexivity|]. split; [|constructor].
    eexists. exists 11%Z. eexists. split; [reflexivity|]. split; [reflexivity|]. split; [reflexivity|]. split; [split; [exact FF|symmetry; exact FV]|]. split; [lia|reflexivity]. }
  exists t. eexists. cbv zeta. split; [|split; [apply (proj2 (M1 (-11)%Z _)); exists (1097 / 2); split; [exact LM|reflexivity]|split; [reflexivity|]]].
  - assert (S1 : serve (AskMasses (mkworld (fun _ => None) case_files)) fresh = (Masses (Er MarleyErr), fresh)) by reflexivity.
    assert (S2 : serve (AskMasses (mkworld case_env no_files)) fresh = (Masses (Er MarleyErr), mksing (Some p) None)) by reflexivity.
    assert (S3 : serve (AskMasses (mkworld case_env case_files)) (mksing (Some p) None) = (Masses (Ok t), mksing (Some p) (Some t))).
    { cbn [serve]. unfold mass_table, file_manager. cbn [s_path s_masses w_files]. rewrite T. reflexivity. }
    cbn [serve_all]. rewrite S1, S2, S3. cbn [serve mass_table file_manager s_path s_masses w_files bind fst]. rewrite EF. reflexivity.
  - apply M2. split; [|reflexivity]. intros x (pre & e & post & E & (l & n & v & -> & E1 & _ & _ & _ & E2) & _).
    assert (I1 : In (JObj l) (pre ++ JObj l :: post)) by (apply in_app_iff; right; left; reflexivity). rewrite <- E in I1.
    destruct I1 as [I1|[I1|[]]]; injection I1 as <-; cbn in E1; injection E1 as <-; discriminate.
Qed.
