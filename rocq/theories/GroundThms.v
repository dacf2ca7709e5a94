(** Property C64: ground-state spins and fragments. *)
From Coq Require Import List Ascii String ZArith Bool Lia.
From Verif Require Import Base Dbl Stream StreamProofs Pdg PdgThms Event Files FilesThms Struct StructProofs Target Ground.
Import ListNotations.
Open Scope list_scope.

(** ** Vocabulary *)

(** The text of a table: code, doubled spin and parity sign on each line. *)
Definition jpi_line (e : Z * (Z * parity)) : bytes := show_int (fst e) ++ sp ++ show_int (fst (snd e)) ++ sp ++ [if snd (snd e) then "+"%char else "-"%char] ++ [nl].
Definition jpi_text (es : list (Z * (Z * parity))) : bytes := flat_map jpi_line es.
Definition jpi_ok (es : list (Z * (Z * parity))) : Prop := Forall (fun e => is_int (fst e) /\ is_int (fst (snd e))) es.

(** The last line for a nuclide. *)
Definition tabled (p : Z) (es : list (Z * (Z * parity))) : option (Z * parity) := option_map snd (find (fun e => Z.eqb p (fst e)) (rev es)).

Definition light : list Z := [2112; 2212; 1000010020; 1000010030; 1000020030; 1000020040]%Z.

(** The file system has the table with these lines. *)
Definition has_table (fs : files) (path : bytes) (es : list (Z * (Z * parity))) : Prop :=
  find_file fs (Base.b "gs_spin_parity_table.txt") path <> [] /\ f_text fs (find_file fs (Base.b "gs_spin_parity_table.txt") path) = jpi_text es.

(** ** Lemmas *)

Lemma tabled_snoc p es e : tabled p (es ++ [e]) = if Z.eqb p (fst e) then Some (snd e) else tabled p es.
Proof. unfold tabled. rewrite rev_app_distr. cbn [rev app find]. destruct (Z.eqb p (fst e)); reflexivity. Qed.

Lemma read_jpi_ok es : jpi_ok es -> forall fuel w pre l, (List.length es < fuel)%nat -> forallb is_space w = true -> (forall p, assoc p l = tabled p pre) ->
  exists l', read_jpi fuel (w ++ jpi_text es) l = (l', Ok tt) /\ forall p, assoc p l' = tabled p (pre ++ es).
Proof.
  intros HO. induction HO as [|[q [j pi]] es (H1 & H2) HO IH]; intros fuel w pre l HL HW HE; (destruct fuel as [|fuel]; [cbn [List.length] in HL; lia|]).
  - unfold jpi_text. cbn [flat_map]. rewrite !app_nil_r. cbn [read_jpi]. unfold rd_int. rewrite rd_num_blank by exact HW. exists l. split; [reflexivity|exact HE].
  - cbn [fst snd] in *. unfold jpi_text. cbn [flat_map]. unfold jpi_line at 1. cbn [fst snd]. rewrite <- !app_assoc. cbn [read_jpi]. unfold rd_int. rewrite rd_num_show; [|exact HW|exact H1|reflexivity]. cbn [obind].
    rewrite rd_num_show; [|reflexivity|exact H2|reflexivity]. cbn [obind].
    assert (EP : forall t, rd_parity (sp ++ [if pi then "+"%char else "-"%char] ++ t) = Ok (Some (pi, t))) by (intros t; destruct pi; reflexivity). rewrite EP.
    replace (pre ++ (q, (j, pi)) :: es) with ((pre ++ [(q, (j, pi))]) ++ es) by (rewrite <- app_assoc; reflexivity).
    apply IH; [cbn [List.length] in HL; lia|reflexivity|]. intros k. rewrite assoc_assign, tabled_snoc, HE. reflexivity.
Qed.

Lemma jpi_text_len es : (List.length es <= List.length (jpi_text es))%nat.
Proof. induction es as [|e es IH]; [apply le_n|]. unfold jpi_text in *. cbn [flat_map List.length]. rewrite app_length. unfold jpi_line at 1. rewrite !app_length. cbn [List.length]. lia. Qed.

(** The fragment table for given spins. *)
Definition all_fragments (es : list (Z * (Z * parity))) : option (list (Z * (Z * parity))) :=
  fold_right (fun f r => match tabled f es, r with Some x, Some l => Some ((f, x) :: l) | _, _ => None end) (Some []) light.

Definition ready (es : list (Z * (Z * parity))) (g : statics) : Prop := t_init g = true /\ (forall p, assoc p (t_jpi g) = tabled p es) /\ all_fragments es = Some (t_frags g).

Lemma init_ok fs path es : jpi_ok es -> has_table fs path es -> (forall f, In f light -> tabled f es <> None) ->
  exists g, init_statics fs path no_statics = (g, Ok tt) /\ ready es g.
Proof.
  intros HO [H1 H2] HF. unfold init_statics. fold jpi_name in H1, H2. destruct (find_file fs jpi_name path) as [|c r] eqn:EF; [contradiction|]. cbv zeta. rewrite H2.
  destruct (read_jpi_ok es HO (S (List.length (jpi_text es))) [] [] []) as (l & E & HL); [pose proof (jpi_text_len es); lia|reflexivity|reflexivity|]. cbn [app t_jpi no_statics] in *. rewrite E.
  assert (HL' : forall f, In f light -> exists x, assoc f l = Some x /\ tabled f es = Some x) by (intros f HI; specialize (HF f HI); destruct (tabled f es) as [x|] eqn:ET; [exists x; split; [rewrite HL; exact ET|reflexivity]|contradiction]).
  destruct (HL' 2112%Z ltac:(cbn; tauto)) as (x1 & A1 & B1). destruct (HL' 2212%Z ltac:(cbn; tauto)) as (x2 & A2 & B2). destruct (HL' 1000010020%Z ltac:(cbn; tauto)) as (x3 & A3 & B3).
  destruct (HL' 1000010030%Z ltac:(cbn; tauto)) as (x4 & A4 & B4). destruct (HL' 1000020030%Z ltac:(cbn; tauto)) as (x5 & A5 & B5). destruct (HL' 1000020040%Z ltac:(cbn; tauto)) as (x6 & A6 & B6).
  unfold fragment_codes. cbn [make_fragments find_jpi t_jpi t_init t_frags no_statics]. unfold find_jpi. cbn [t_jpi].
  rewrite A1. cbn [make_fragments t_init t_jpi t_frags assoc]. unfold find_jpi. cbn [t_jpi]. rewrite A2. cbn [make_fragments t_init t_jpi t_frags]. unfold find_jpi. cbn [t_jpi]. rewrite A3. cbn [make_fragments t_init t_jpi t_frags]. unfold find_jpi. cbn [t_jpi]. rewrite A4. cbn [make_fragments t_init t_jpi t_frags]. unfold find_jpi. cbn [t_jpi].
  rewrite A5. cbn [make_fragments t_init t_jpi t_frags]. unfold find_jpi. cbn [t_jpi]. rewrite A6. eexists. split; [reflexivity|]. split; [reflexivity|]. split; [exact HL|]. unfold all_fragments. cbn [light fold_right]. rewrite B1, B2, B3, B4, B5, B6. reflexivity.
Qed.

Lemma ready_step es g op : ready es g -> gs_step g op = g.
Proof. intros (H & _). destruct op; cbn [gs_step]; unfold gs_spin_parity, get_fragment, fragments, ensure; rewrite H; reflexivity. Qed.
Lemma ready_run es ops : forall g, ready es g -> fold_left gs_step ops g = g.
Proof. induction ops as [|op ops IH]; intros g H; cbn [fold_left]; [reflexivity|]. rewrite (ready_step es g op H). apply IH. exact H. Qed.

Lemma first_step fs path es op : jpi_ok es -> has_table fs path es -> (forall f, In f light -> tabled f es <> None) ->
  (match op with GSpin f p _ | GFrag f p _ | GAll f p => f = fs /\ p = path end) -> ready es (gs_step no_statics op).
Proof.
  intros HO HT HF HE. destruct (init_ok fs path es HO HT HF) as (g & E & HR). destruct op; destruct HE as [-> ->]; cbn [gs_step]; unfold gs_spin_parity, get_fragment, fragments, ensure; cbn [t_init no_statics]; fold no_statics; rewrite E; exact HR.
Qed.

Lemma all_fragments_assoc es l p : all_fragments es = Some l -> assoc p l = if existsb (Z.eqb p) light then tabled p es else None.
Proof.
  unfold all_fragments. generalize light as fr. intros fr. revert l. induction fr as [|f fr IH]; intros l H; cbn [fold_right existsb] in *; [injection H as <-; reflexivity|].
  destruct (tabled f es) as [x|] eqn:E; [|discriminate]. destruct (fold_right _ _ fr) as [l'|]; [|discriminate]. injection H as <-. cbn [assoc]. destruct (Z.eqb_spec p f) as [->|]; [symmetry; exact E|]. cbn [orb]. apply IH. reflexivity.
Qed.

(** ** Theorems *)

(** With a readable table that lists all fragments, the first call of any kind loads it, and
    from then on (whatever happens to the file) every call answers from its last line for
    the nuclide; nuclides that are not listed are an error; the fragments are exactly
    neutron, proton, deuteron, triton, helion and alpha, in this order. *)
Theorem C64_table fs path es first ops fs' path' p : jpi_ok es -> has_table fs path es -> (forall f, In f light -> tabled f es <> None) ->
  (match first with GSpin f q _ | GFrag f q _ | GAll f q => f = fs /\ q = path end) ->
  let g := fold_left gs_step (first :: ops) no_statics in
  gs_spin_parity fs' path' p g = (g, match tabled p es with Some x => Ok x | None => Er MarleyErr end) /\
  get_fragment fs' path' p g = (g, Ok (if existsb (Z.eqb p) light then tabled p es else None)) /\
  exists l, fragments fs' path' g = (g, Ok l) /\ map fst l = light /\ Forall (fun e => tabled (fst e) es = Some (snd e)) l.
Proof.
  intros HO HT HF HE g. pose proof (first_step fs path es first HO HT HF HE) as HR. subst g. cbn [fold_left]. rewrite (ready_run es ops _ HR). set (g := gs_step no_statics first) in *. destruct HR as (R1 & R2 & R3).
  unfold gs_spin_parity, get_fragment, fragments, ensure. rewrite R1. cbn [bind]. split; [unfold find_jpi; rewrite R2; reflexivity|]. split; [rewrite (all_fragments_assoc _ _ _ R3); reflexivity|].
  exists (t_frags g). split; [reflexivity|]. revert R3. unfold all_fragments. generalize light as fr. generalize (t_frags g) as l. clear. intros l fr. revert l. induction fr as [|f fr IH]; intros l H; cbn [fold_right map] in *.
  - injection H as <-. split; [reflexivity|constructor].
  - destruct (tabled f es) as [x|] eqn:E; [|discriminate]. destruct (fold_right _ _ fr) as [l'|]; [|discriminate]. injection H as <-. destruct (IH l' eq_refl) as [I1 I2]. cbn [map fst]. rewrite I1. split; [reflexivity|]. constructor; assumption.
Qed.
Print Assumptions C64_table.

(** The first call gives the same answers as later ones. *)
Theorem C64_first fs path es p : jpi_ok es -> has_table fs path es -> (forall f, In f light -> tabled f es <> None) ->
  snd (gs_spin_parity fs path p no_statics) = (match tabled p es with Some x => Ok x | None => Er MarleyErr end) /\
  snd (get_fragment fs path p no_statics) = Ok (if existsb (Z.eqb p) light then tabled p es else None).
Proof.
  intros HO HT HF. destruct (init_ok fs path es HO HT HF) as (g & E & R1 & R2 & R3). unfold gs_spin_parity, get_fragment, ensure. cbn [t_init no_statics]. fold no_statics. rewrite E. cbn [snd bind].
  unfold find_jpi. rewrite R2, (all_fragments_assoc _ _ _ R3). auto.
Qed.
Print Assumptions C64_first.

(** Without a table every call is an error, and none changes anything: a later call with the
    table in place works. *)
Theorem C64_missing fs path p : find_file fs (Base.b "gs_spin_parity_table.txt") path = [] ->
  gs_spin_parity fs path p no_statics = (no_statics, Er MarleyErr) /\ get_fragment fs path p no_statics = (no_statics, Er MarleyErr) /\ fragments fs path no_statics = (no_statics, Er MarleyErr).
Proof. intros H. unfold gs_spin_parity, get_fragment, fragments, ensure, init_statics. cbn [t_init no_statics]. fold no_statics. fold jpi_name in H. rewrite H. repeat split. Qed.
Print Assumptions C64_missing.

Lemma make_fragments_err es l : forall fr g, (forall p, assoc p (t_jpi g) = tabled p es) -> t_jpi g = l -> (exists f, In f fr /\ tabled f es = None) ->
  exists g', make_fragments fr g = (g', Er MarleyErr) /\ t_init g' = t_init g /\ t_jpi g' = l.
Proof.
  induction fr as [|f fr IH]; intros g HT HL (x & HI & HX); [destruct HI|]. cbn [make_fragments]. unfold find_jpi. rewrite HT. destruct (tabled f es) as [y|] eqn:E.
  - match goal with |- context [make_fragments fr ?g1] => apply (IH g1) end; [exact HT|exact HL|]. exists x. split; [|exact HX]. destruct HI as [->|HI]; [congruence|exact HI].
  - exists g. auto.
Qed.

(** If a fragment is missing from the table the call that loads it complains, whatever it asked
    for; afterwards spins and parities are answered all the same. *)
Theorem C64_incomplete fs path es p fs' path' q : jpi_ok es -> has_table fs path es -> (exists f, In f light /\ tabled f es = None) ->
  snd (gs_spin_parity fs path p no_statics) = Er MarleyErr /\ snd (get_fragment fs path p no_statics) = Er MarleyErr /\ snd (fragments fs path no_statics) = Er MarleyErr /\
  snd (gs_spin_parity fs' path' q (gs_step no_statics (GSpin fs path p))) = (match tabled q es with Some x => Ok x | None => Er MarleyErr end).
Proof.
  intros HO [H1 H2] HF.
  assert (I : exists g, init_statics fs path no_statics = (g, Er MarleyErr) /\ t_init g = true /\ forall k, assoc k (t_jpi g) = tabled k es).
  { unfold init_statics. fold jpi_name in H1, H2. destruct (find_file fs jpi_name path) as [|c r] eqn:EF; [contradiction|]. cbv zeta. rewrite H2.
    destruct (read_jpi_ok es HO (S (List.length (jpi_text es))) [] [] []) as (l & E & HL); [pose proof (jpi_text_len es); lia|reflexivity|reflexivity|]. cbn [app t_jpi no_statics] in *. rewrite E.
    destruct (make_fragments_err es l fragment_codes (mkstatics true l []) HL eq_refl HF) as (g & G1 & G2 & G3). exists g. split; [exact G1|]. split; [exact G2|]. rewrite G3. exact HL. }
  destruct I as (g & I1 & I2 & I3). cbn [gs_step]. unfold gs_spin_parity, get_fragment, fragments, ensure. cbn [t_init no_statics]. fold no_statics. rewrite I1. cbn [snd fst bind]. rewrite I2. cbn [snd bind]. unfold find_jpi. rewrite I3. auto.
Qed.
Print Assumptions C64_incomplete.

(** If a fragment is missing from the table only the first call complains; afterwards the
    fragments after it are silently absent. *)
Definition short_table : list (Z * (Z * parity)) := [(2112, (1, true)); (1000010020, (2, true))]%Z.
Definition short_files : files := mkfiles (fun _ => true) (fun _ => None) (fun _ => jpi_text short_table).
Theorem C64_incomplete_refuted : exists fs es, has_table fs [] es /\ jpi_ok es /\ tabled 1000010020 es <> None /\
  snd (get_fragment fs [] 1000010020 no_statics) = Er MarleyErr /\
  snd (get_fragment fs [] 1000010020 (gs_step no_statics (GFrag fs [] 1000010020))) = Ok None.
Proof.
  exists short_files, short_table. split; [split; [discriminate|reflexivity]|]. split; [repeat constructor; vm_compute; congruence|]. split; [discriminate|]. split; vm_compute; reflexivity.
Qed.
Print Assumptions C64_incomplete_refuted.

(** ** A case *)

Definition case_table : list (Z * (Z * parity)) := [(2112, (1, true)); (2212, (1, true)); (1000010020, (2, true)); (1000010030, (1, true)); (1000020030, (1, true)); (1000020040, (0, true)); (1000030040, (4, false)); (1000020040, (0, true))]%Z.
Definition case_fs : files := mkfiles (fun _ => true) (fun _ => None) (fun _ => jpi_text case_table).
Example C64_case : jpi_ok case_table /\ has_table case_fs [] case_table /\ (forall f, In f light -> tabled f case_table <> None) /\ snd (gs_spin_parity case_fs [] 1000030040 no_statics) = Ok (4%Z, false).
Proof.
  split; [repeat constructor; vm_compute; congruence|]. split; [split; [discriminate|reflexivity]|]. split; [|vm_compute; reflexivity].
  intros f HI. repeat (destruct HI as [<-|HI]; [vm_compute; discriminate|]). destruct HI.
Qed.
