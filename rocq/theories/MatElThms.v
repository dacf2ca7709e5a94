(** Theorems about reaction data files (C25, and C26 for loaded files). *)
From Coq Require Import List Ascii String ZArith Bool Lia Sorted Permutation.
From Coq Require Import Floats.SpecFloat.
From Verif Require Import Base Dbl DigitsProofs DblProofs Stream StreamProofs Pdg Names React PdgThms Event EventSpec Levels
  LevelsProofs LevelsTextProofs MatEl LevelsThms.
Import ListNotations.
Local Open Scope Z_scope.

(** ** Files as lines *)

Definition no_nl (l : bytes) : Prop := ~ In nl l.
Definition unlines (ls : list bytes) : bytes := flat_map (fun l => l ++ [nl]) ls.

Lemma lines_of_tail : forall t, no_nl t -> lines_of t = ([], t).
Proof.
  induction t as [|c t IH]; intros H; [reflexivity|]. cbn [lines_of]. rewrite IH by (intros Hc; apply H; right; exact Hc).
  destruct (ceq c nl) eqn:E; [|reflexivity]. apply Ascii.eqb_eq in E. exfalso. apply H. left. exact E.
Qed.

Lemma lines_of_line : forall l y, no_nl l -> lines_of (l ++ nl :: y) = (l :: fst (lines_of y), snd (lines_of y)).
Proof.
  induction l as [|c l IH]; intros y H; cbn [app lines_of].
  - destruct (lines_of y). reflexivity.
  - rewrite IH by (intros Hc; apply H; right; exact Hc). destruct (ceq c nl) eqn:E; [|reflexivity].
    apply Ascii.eqb_eq in E. exfalso. apply H. left. exact E.
Qed.

Lemma lines_of_unlines : forall ls t, Forall no_nl ls -> no_nl t -> lines_of (unlines ls ++ t) = (ls, t).
Proof.
  intros ls t HL Ht. induction HL as [|l ls Hl _ IH]; [apply lines_of_tail; exact Ht|].
  cbn [unlines flat_map]. rewrite <- !app_assoc. cbn [app]. fold (unlines ls). rewrite lines_of_line by exact Hl. rewrite IH. reflexivity.
Qed.

(** Every file is a list of lines and a rest without newline. *)
Theorem C25_every_file : forall s, exists ls t, s = unlines ls ++ t /\ Forall no_nl ls /\ no_nl t.
Proof.
  induction s as [|c s (ls & t & -> & HL & Ht)].
  - exists [], []. repeat split; [constructor|intros []].
  - destruct (ceq c nl) eqn:E.
    + apply Ascii.eqb_eq in E. subst c. exists ([] :: ls), t. repeat split; [|exact Ht]. constructor; [intros []|exact HL].
    + assert (Hc : c <> nl) by (intros ->; discriminate E). destruct ls as [|l ls].
      * exists [], (c :: t). repeat split; [constructor|]. intros [H|H]; [congruence|exact (Ht H)].
      * inversion HL; subst. exists ((c :: l) :: ls), t. repeat split; [|exact Ht]. constructor; [|assumption].
        intros [H|H]; [congruence|contradiction].
Qed.
Print Assumptions C25_every_file.

(** ** C25 *)

Definition content (ls : list bytes) : list bytes := filter (fun l => negb (is_comment l)) ls.

Lemma next_line_content : forall ls t,
  match content ls with
  | [] => next_line ls t = ((if is_comment t then [] else t), [], false)
  | l :: r => exists ls', next_line ls t = (l, ls', true) /\ content ls' = r
  end.
Proof.
  intros ls t. induction ls as [|l ls IH]; cbn [content filter next_line].
  - destruct (is_comment t); reflexivity.
  - destruct (is_comment l) eqn:E; cbn [negb]; [exact IH|]. exists ls. split; reflexivity.
Qed.

Lemma read_table_content : forall ls old, read_table old ls = read_table old (content ls).
Proof.
  induction ls as [|l ls IH]; intros old; [reflexivity|]. cbn [read_table content filter].
  destruct (is_comment l) eqn:E; cbn [negb]; [apply IH|]. cbn [read_table]. rewrite E.
  destruct (read_matel old l) as [m|]; [|reflexivity]. cbn [bind]. rewrite IH. reflexivity.
Qed.

Lemma more_targets_content : forall ls t, more_targets ls t = more_targets (content ls) t.
Proof.
  induction ls as [|l ls IH]; intros t; [reflexivity|]. cbn [more_targets content filter].
  destruct (is_comment l) eqn:E; cbn [negb]; [apply IH|]. cbn [more_targets]. rewrite E. destruct l; [reflexivity|]. f_equal. apply IH.
Qed.

(** The comment lines: the sign # in the first column, and no carriage return. (A
    line holds no newline.) *)
Theorem C25_comment_lines : forall l, no_nl l ->
  (is_comment l = true <-> exists t, l = "#"%char :: t /\ ~ In (chr 13) t).
Proof.
  intros l Hn. split.
  - destruct l as [|c r]; [discriminate|]. cbn [is_comment]. intros H. apply andb_prop in H as [H1 H2].
    unfold ceq in H1. apply Ascii.eqb_eq in H1 as ->. exists r. split; [reflexivity|]. intros Hi.
    apply (proj1 (forallb_forall _ _) H2) in Hi. unfold ceq in Hi. rewrite Ascii.eqb_refl in Hi. discriminate Hi.
  - intros (t & -> & Ht). cbn [is_comment]. apply andb_true_intro. split; [reflexivity|].
    apply forallb_forall. intros x Hx. unfold ceq. apply andb_true_intro. split; apply negb_true_iff; apply Ascii.eqb_neq.
    + intros ->. apply Ht. exact Hx.
    + intros ->. apply Hn. right. exact Hx.
Qed.
Print Assumptions C25_comment_lines.

(** Comment lines, wherever they are, change nothing. *)
Theorem C25_comments : forall nd ls t, Forall no_nl ls -> no_nl t ->
  load nd (unlines ls ++ t) = load nd (unlines (filter (fun l => negb (is_comment l)) ls) ++ t).
Proof.
  intros nd ls t HL Ht. assert (HC : Forall no_nl (content ls)) by (eapply incl_Forall; [apply incl_filter|exact HL]).
  fold (content ls). unfold load. rewrite !lines_of_unlines by assumption.
  pose proof (next_line_content ls t) as H1. pose proof (next_line_content (content ls) t) as H2.
  assert (Ec : content (content ls) = content ls).
  { unfold content. induction ls as [|l ls IH]; [reflexivity|]. cbn [filter]. inversion HL; subst.
    assert (HC' : Forall no_nl (content ls)) by (eapply incl_Forall; [apply incl_filter|assumption]).
    destruct (is_comment l) eqn:E; cbn [negb filter]; [apply IH; auto; [apply next_line_content|apply next_line_content]|].
    rewrite E. cbn [negb]. f_equal. apply IH; auto; apply next_line_content. }
  rewrite Ec in H2. destruct (content ls) as [|l r]; [rewrite H1, H2; reflexivity|].
  destruct H1 as (l1 & -> & E1). destruct H2 as (l2 & -> & E2).
  destruct (get_int l) as [z rest| |]; try reflexivity.
  rewrite (more_targets_content l1), (more_targets_content l2), (read_table_content l1), (read_table_content l2), E1, E2. reflexivity.
Qed.
Print Assumptions C25_comments.

(** One line of the table and the matrix element it gives. A type that cannot be
    read, after something that is not white space, is stored as 0 or the extreme
    integer. *)
Definition line_gives (l : bytes) (m : matel) : Prop :=
  exists r1 r2, rd_dbl l = Some (m_energy m, r1) /\ rd_dbl r1 = Some (m_strength m, r2) /\
    ((exists r3, rd_int r2 = Some (m_type m, r3)) \/
     (rd_int r2 = None /\ In (m_type m) [0; int_min; int_max] /\ forallb is_space r2 = false)).

Lemma skip_sp_nil : forall s, skip_sp s = [] <-> forallb is_space s = true.
Proof.
  intros s. induction s as [|c s IH]; [split; reflexivity|]. cbn [skip_sp forallb]. destruct (is_space c); [exact IH|].
  split; [discriminate|discriminate].
Qed.

Lemma get_dbl_got : forall s x r, get_dbl s = Got x r -> rd_dbl s = Some (x, r).
Proof.
  intros s x r H. unfold get_dbl in H. destruct (skip_sp s); [discriminate H|]. destruct (rd_dbl s) as [[y t]|]; [congruence|].
  destruct (take_sign _) as [neg r']. destruct (span_digits r') as [ip r1]. destruct (match r1 with [] => _ | _ => _ end) as [fp r2].
  destruct (ip ++ fp); [discriminate H|]. destruct (rd_exp r2); discriminate H.
Qed.

Lemma read_matel_ok : forall old l m, read_matel old l = Ok m ->
  line_gives l m /\ units old < units (m_energy m) /\ m_level m = None.
Proof.
  intros old l m H. unfold read_matel in H.
  destruct (get_dbl l) as [e r1|e|] eqn:E1; [|destruct (dle e old); discriminate H|discriminate H].
  apply get_dbl_got in E1. unfold dle in H. destruct (Z.leb_spec (units e) (units old)); [discriminate H|].
  destruct (get_dbl r1) as [st r2|st|] eqn:E2; try discriminate H. apply get_dbl_got in E2.
  destruct (get_int r2) as [t r3|t|] eqn:E3; try discriminate H; injection H as <-.
  - split; [|split; [cbn [m_energy]; lia|reflexivity]]. exists r1, r2. split; [exact E1|]. split; [exact E2|]. left. exists r3.
    unfold get_int in E3. destruct (skip_sp r2); [discriminate E3|]. destruct (rd_int r2) as [[z r]|]; [injection E3 as -> ->; reflexivity|].
    destruct (take_sign _) as [neg r]. destruct (span_digits r) as [[|? ?] ?]; discriminate E3.
  - split; [|split; [cbn [m_energy]; lia|reflexivity]]. exists r1, r2. split; [exact E1|]. split; [exact E2|]. right.
    unfold get_int in E3. destruct (skip_sp r2) eqn:Es; [discriminate E3|]. destruct (rd_int r2) as [[z r]|]; [discriminate E3|].
    split; [reflexivity|]. split.
    + destruct (take_sign _) as [neg r]. destruct (span_digits r) as [[|? ?] ?]; [injection E3 as <-; left; reflexivity|].
      destruct neg; injection E3 as <-; cbn; auto.
    + destruct (forallb is_space r2) eqn:Ef; [|reflexivity]. apply skip_sp_nil in Ef. congruence.
Qed.

Lemma read_table_ok : forall ls old ms, read_table old ls = Ok ms ->
  Forall2 line_gives (content ls) ms /\ StronglySorted (fun x y => units x < units y) (old :: map m_energy ms) /\
  Forall (fun m => m_level m = None) ms.
Proof.
  intros ls. induction ls as [|l ls IH]; intros old ms H; cbn [read_table content filter] in *.
  - injection H as <-. split; [constructor|]. split; [constructor; constructor|constructor].
  - destruct (is_comment l); cbn [negb]; [apply IH; exact H|].
    destruct (read_matel old l) as [m|] eqn:Em; [|discriminate H]. cbn [bind] in H.
    destruct (read_table (m_energy m) ls) as [ms'|] eqn:Et; [|discriminate H]. injection H as <-.
    apply read_matel_ok in Em as (A & B & C). apply IH in Et as (D & E & F).
    split; [constructor; assumption|]. split; [|constructor; assumption]. cbn [map]. constructor; [exact E|].
    constructor; [exact B|]. inversion E as [|? ? _ HF]; subst. eapply Forall_impl; [|exact HF]. cbv beta. intros; lia.
Qed.

(** Matching keeps energy, strength and type. *)
Lemma set_level_ptrs_keeps : forall nd pb pd ms ms', set_level_ptrs nd pb pd ms = Ok ms' ->
  map m_energy ms' = map m_energy ms /\ map m_strength ms' = map m_strength ms /\ map m_type ms' = map m_type ms.
Proof.
  intros nd pb pd ms ms' H. unfold set_level_ptrs in H. destruct (n_scheme nd pd) as [[sc|]|]; [|cbn [bind] in H; injection H as <-; auto|discriminate H].
  cbn [bind] in H. destruct (negb _); [discriminate H|]. destruct (n_threshold nd pd) as [thr|]; [|discriminate H]. cbn [bind] in H.
  destruct (n_gs nd pb) as [g|]; [|discriminate H]. cbn [bind] in H.
  assert (K : forall todo pre out, match_levels sc thr pre todo = Ok out ->
    map m_energy out = map m_energy (pre ++ todo) /\ map m_strength out = map m_strength (pre ++ todo) /\ map m_type out = map m_type (pre ++ todo)).
  { clear. induction todo as [|m r IH]; intros pre out H; cbn [match_levels] in H.
    - injection H as <-. rewrite app_nil_r. auto.
    - destruct (dlt thr (m_energy m)).
      + apply IH in H. rewrite <- app_assoc in H. rewrite !map_app in *. cbn [app map] in *. exact H.
      + destruct (closest_level (m_energy m) sc) as [p|]; [|discriminate H]. destruct (existsb _ _); [discriminate H|].
        apply IH in H. rewrite <- app_assoc in H. rewrite !map_app in *. cbn [app map] in *. exact H. }
  apply (K ms [] ms' H).
Qed.

Lemma Forall2_maps : forall (R : bytes -> matel -> Prop) ls ms ms',
  (forall l m m', R l m -> m_energy m' = m_energy m -> m_strength m' = m_strength m -> m_type m' = m_type m -> R l m') ->
  Forall2 R ls ms -> map m_energy ms' = map m_energy ms -> map m_strength ms' = map m_strength ms -> map m_type ms' = map m_type ms ->
  Forall2 R ls ms'.
Proof.
  intros R ls ms ms' HR H. revert ms'. induction H as [|l m ls ms Hm _ IH]; intros [|m' ms'] E1 E2 E3; try discriminate E1; [constructor|].
  cbn [map] in *. injection E1 as E1 E1'. injection E2 as E2 E2'. injection E3 as E3 E3'. constructor; [|apply IH; assumption].
  eapply HR; eassumption.
Qed.

Lemma load_nuclear : forall nd ls t rs tbl, Forall no_nl ls -> no_nl t -> load nd (unlines ls ++ t) = Ok (Nuclear rs tbl) ->
  exists code pt pdg_b d ms, 
    (exists r, get_int (match content ls with l :: _ => l | [] => if is_comment t then [] else t end) = Got code r /\
       (get_int r = Bad pdg_b \/ exists r', get_int r = Got pdg_b r')) /\
    proc_of_int code = Some pt /\ pt <> NuElectronElastic /\
    read_table (dbl_max true) (tl (content ls)) = Ok ms /\ (exists q, residue pt pdg_b = Ok (d, q)) /\
    set_level_ptrs nd pdg_b d ms = Ok tbl /\ nuclear_reactions pt pdg_b = Ok rs.
Proof.
  intros nd ls t rs tbl HL Ht H. unfold load in H. rewrite lines_of_unlines in H by assumption.
  set (hd := match content ls with l :: _ => l | [] => if is_comment t then [] else t end).
  assert (HN : exists ls' g, next_line ls t = (hd, ls', g) /\ content ls' = tl (content ls)).
  { pose proof (next_line_content ls t) as HN. subst hd. destruct (content ls) as [|l r].
    - exists [], false. split; [exact HN|reflexivity].
    - destruct HN as (ls' & HN & E). exists ls', true. split; assumption. }
  destruct HN as (ls' & g & HN & EC). rewrite HN in H.
  destruct (get_int hd) as [code r| |] eqn:Eh; try discriminate H.
  destruct (proc_of_int code) as [pt|] eqn:Ep.
  - assert (Hpt : pt <> NuElectronElastic).
    { intros ->. destruct (map_res _ _); [|discriminate H]. discriminate H. }
    assert (H' : match get_int r with
          | Unset => Er Undefined
          | Bad pdg_b | Got pdg_b _ =>
              do ms <- read_table (dbl_max true) ls';
              (do (d, _) <- residue pt pdg_b;
               do ms' <- set_level_ptrs nd pdg_b d ms;
               do rs <- nuclear_reactions pt pdg_b;
               Ok (Nuclear rs ms'))
          end = Ok (Nuclear rs tbl)) by (destruct pt; [exact H|exact H|exact H|contradiction]).
    clear H. rewrite read_table_content, EC in H'.
    assert (K : forall pdg_b, (do ms <- read_table (dbl_max true) (tl (content ls));
              (do (d, _) <- residue pt pdg_b;
               do ms' <- set_level_ptrs nd pdg_b d ms;
               do rs <- nuclear_reactions pt pdg_b;
               Ok (Nuclear rs ms'))) = Ok (Nuclear rs tbl) ->
       exists d ms, read_table (dbl_max true) (tl (content ls)) = Ok ms /\ (exists q, residue pt pdg_b = Ok (d, q)) /\
         set_level_ptrs nd pdg_b d ms = Ok tbl /\ nuclear_reactions pt pdg_b = Ok rs).
    { intros pdg_b K. destruct (read_table (dbl_max true) (tl (content ls))) as [ms|]; [|discriminate K]. cbn [bind] in K.
      destruct (residue pt pdg_b) as [[d q]|] eqn:Er; [|discriminate K]. cbn [bind] in K.
      destruct (set_level_ptrs nd pdg_b d ms) as [ms'|] eqn:Es; [|discriminate K]. cbn [bind] in K.
      destruct (nuclear_reactions pt pdg_b) as [rs'|]; [|discriminate K]. cbn [bind] in K. injection K as -> ->.
      exists d, ms. split; [reflexivity|]. split; [exists q; reflexivity|]. split; [exact Es|reflexivity]. }
    destruct (get_int r) as [pdg_b r'|pdg_b|] eqn:Er; [..|discriminate H']; apply K in H' as (d & ms & A & B & C & D);
      exists code, pt, pdg_b, d, ms; repeat split; auto; exists r; (split; [first [reflexivity|exact Eh]|]); [right; exists r'; exact Er|left; exact Er].
  - exfalso. destruct (get_int r) as [x r'|x|]; try discriminate H; destruct (read_table _ _); discriminate H.
Qed.

(** A file that loads as nuclear reactions: the table has one element for every
    line (comments and a last line without newline left out), in file order, with
    the numbers written there, in strictly ascending energy. *)
Theorem C25_table : forall nd ls t rs tbl, Forall no_nl ls -> no_nl t ->
  load nd (unlines ls ++ t) = Ok (Nuclear rs tbl) ->
  Forall2 line_gives (tl (filter (fun l => negb (is_comment l)) ls)) tbl /\
  StronglySorted (fun x y => units x < units y) (map m_energy tbl).
Proof.
  intros nd ls t rs tbl HL Ht H. apply load_nuclear in H as (code & pt & pdg_b & d & ms & _ & _ & _ & HT & _ & HS & _); [|exact HL|exact Ht].
  apply read_table_ok in HT as (A & B & _). apply set_level_ptrs_keeps in HS as (E1 & E2 & E3).
  assert (Ec : content (tl (content ls)) = tl (content ls)).
  { clear A. assert (Hc : Forall (fun l => is_comment l = false) (content ls)).
    { apply Forall_forall. intros l Hl. apply filter_In in Hl as [_ Hl]. destruct (is_comment l); [discriminate Hl|reflexivity]. }
    destruct Hc as [|l r _ Hc]; [reflexivity|]. cbn [tl]. unfold content. induction Hc as [|x r Hx _ IH]; [reflexivity|].
    cbn [filter]. rewrite Hx. cbn [negb]. f_equal. exact IH. }
  rewrite Ec in A. split.
  - eapply Forall2_maps; [|exact A|..]; try assumption. intros l m m' (r1 & r2 & R1 & R2 & R3) F1 F2 F3.
    exists r1, r2. rewrite F1, F2, F3. auto.
  - rewrite E1. inversion B; assumption.
Qed.
Print Assumptions C25_table.

(** Conversely, if every line has three numbers: any repeat or decrease is a
    marley::Error, and otherwise the table is the one written. *)
Definition line_is (l : bytes) (m : matel) : Prop :=
  m_level m = None /\ exists r1 r2 r3, rd_dbl l = Some (m_energy m, r1) /\ rd_dbl r1 = Some (m_strength m, r2) /\ rd_int r2 = Some (m_type m, r3).

Lemma rd_dbl_nonblank : forall s x, rd_dbl s = Some x -> skip_sp s <> [].
Proof. intros s x H E. apply skip_sp_nil in E. rewrite rd_dbl_blank in H by exact E. discriminate H. Qed.

Lemma read_matel_line : forall old l m, line_is l m ->
  read_matel old l = if dle (m_energy m) old then Er MarleyErr else Ok m.
Proof.
  intros old l [e st ty lv0] (HL & r1 & r2 & r3 & H1 & H2 & H3). cbn in *. subst lv0. unfold read_matel, get_dbl at 1.
  pose proof (rd_dbl_nonblank _ _ H1). destruct (skip_sp l); [contradiction|]. rewrite H1.
  destruct (dle e old); [reflexivity|]. unfold get_dbl. pose proof (rd_dbl_nonblank _ _ H2). destruct (skip_sp r1); [contradiction|].
  rewrite H2. unfold get_int. destruct (skip_sp r2) eqn:Es.
  - exfalso. apply skip_sp_nil in Es. unfold rd_int in H3. rewrite rd_num_blank in H3 by exact Es. discriminate H3.
  - rewrite H3. reflexivity.
Qed.

Theorem C25_ascending_or_error : forall ls old ms, Forall (fun l => is_comment l = false) ls -> Forall2 line_is ls ms ->
  (StronglySorted (fun x y => units x < units y) (old :: map m_energy ms) -> read_table old ls = Ok ms) /\
  (~ StronglySorted (fun x y => units x < units y) (old :: map m_energy ms) -> read_table old ls = Er MarleyErr).
Proof.
  intros ls old ms HC H. revert old HC. induction H as [|l m ls ms Hl _ IH]; intros old HC; cbn [read_table map].
  - split; [reflexivity|]. intros N. exfalso. apply N. constructor; constructor.
  - inversion HC as [|? ? Hc HC']; subst. rewrite Hc, (read_matel_line old l m Hl). unfold dle.
    destruct (IH (m_energy m) HC') as [I1 I2]. destruct (Z.leb_spec (units (m_energy m)) (units old)) as [L|L].
    + split; [|reflexivity]. intros HS. inversion HS as [|? ? _ HF]; subst. inversion HF; subst. lia.
    + cbn [bind]. split.
      * intros HS. inversion HS as [|? ? HS' _]; subst. rewrite (I1 HS'). reflexivity.
      * intros N. rewrite I2; [reflexivity|]. intros HS. apply N. constructor; [exact HS|].
        constructor; [exact L|]. inversion HS as [|? ? _ HF]; subst. eapply Forall_impl; [|exact HF]. cbv beta. intros; lia.
Qed.
Print Assumptions C25_ascending_or_error.

(** The same for whole files, for a nuclide without a decay scheme. *)
Theorem C25_file : forall nd hd ls t ms code pt pdg_b r r' q d rs, no_nl hd -> Forall no_nl ls -> no_nl t ->
  is_comment hd = false -> Forall (fun l => is_comment l = false) ls -> Forall2 line_is ls ms ->
  get_int hd = Got code r -> proc_of_int code = Some pt -> pt <> NuElectronElastic -> get_int r = Got pdg_b r' ->
  residue pt pdg_b = Ok (d, q) -> n_scheme nd d = Ok None -> nuclear_reactions pt pdg_b = Ok rs ->
  (StronglySorted (fun x y => units x < units y) (dbl_max true :: map m_energy ms) ->
     load nd (unlines (hd :: ls) ++ t) = Ok (Nuclear rs ms)) /\
  (~ StronglySorted (fun x y => units x < units y) (dbl_max true :: map m_energy ms) ->
     load nd (unlines (hd :: ls) ++ t) = Er MarleyErr).
Proof.
  intros nd hd ls t ms code pt pdg_b r r' q d rs Hh HL Ht Ch CL HM G1 HP HE G2 HR HN HX.
  destruct (C25_ascending_or_error ls (dbl_max true) ms CL HM) as [A B].
  assert (E : load nd (unlines (hd :: ls) ++ t) = do ms <- read_table (dbl_max true) ls; Ok (Nuclear rs ms)).
  { unfold load. rewrite lines_of_unlines by (try constructor; assumption). cbn [next_line]. rewrite Ch, G1, HP, G2.
    destruct pt; [..|contradiction]; destruct (read_table _ ls); cbn [bind]; try reflexivity;
      rewrite HR; cbn [bind]; unfold set_level_ptrs; rewrite HN; cbn [bind]; rewrite HX; reflexivity. }
  rewrite E. split; intros H; [rewrite (A H)|rewrite (B H)]; reflexivity.
Qed.
Print Assumptions C25_file.

(** A last line without newline is dropped, whatever it says (nuclear tables). *)
Theorem C25_last_line : forall nd ls t, Forall no_nl ls -> no_nl t ->
  (exists l rest code r, content ls = l :: rest /\ get_int l = Got code r /\ code <> 3) ->
  load nd (unlines ls ++ t) = load nd (unlines ls).
Proof.
  intros nd ls t HL Ht (l & rest & code & r & HC & HG & HN). rewrite <- (app_nil_r (unlines ls)) at 2.
  unfold load. rewrite !lines_of_unlines by (try assumption; intros []).
  pose proof (next_line_content ls t) as H1. pose proof (next_line_content ls []) as H2. rewrite HC in H1, H2.
  destruct H1 as (l1 & -> & E1). destruct H2 as (l2 & -> & E2). rewrite HG.
  assert (HP : proc_of_int code <> Some NuElectronElastic).
  { unfold proc_of_int. repeat (destruct (_ =? _); [discriminate|]). destruct (Z.eqb_spec code 3); [contradiction|discriminate]. }
  destruct (proc_of_int code) as [[]|]; try contradiction; try reflexivity;
    rewrite (read_table_content l1), (read_table_content l2), E1, E2; reflexivity.
Qed.
Print Assumptions C25_last_line.

(** Electron scattering files: six reactions for every target, in order. *)
Theorem C25_electron : forall nd s rs, load nd s = Ok (Electron rs) ->
  exists targets es, electron_reactions = Ok es /\ rs = flat_map (fun t => map (pair t) es) targets /\
    Forall (fun t => 0 < particle_A t) targets.
Proof.
  intros nd s rs H. unfold load in H. destruct (lines_of s) as [ls t]. destruct (next_line ls t) as [[line ls1] good].
  destruct (get_int line) as [pt r| |]; try discriminate H.
  assert (K : forall targets rs, (do ts <- map_res (fun t => do t' <- target_atom t; do rs <- electron_reactions; Ok (map (pair t') rs)) targets;
          Ok (Electron (List.concat ts))) = Ok (Electron rs) ->
    exists es, electron_reactions = Ok es /\ rs = flat_map (fun t => map (pair t) es) targets /\ Forall (fun t => 0 < particle_A t) targets).
  { clear. intros targets rs H. destruct electron_reactions as [es|] eqn:Ee; [|vm_compute in Ee; discriminate Ee].
    exists es. split; [reflexivity|]. destruct (map_res _ targets) as [ts|] eqn:Em; [|discriminate H]. injection H as <-.
    apply map_res_in in Em. induction Em as [|x y l l' Hx _ IH]; [split; [reflexivity|constructor]|].
    cbn [List.concat flat_map]. unfold target_atom in Hx. destruct (Z.leb_spec (particle_A x) 0); [discriminate Hx|].
    cbn [bind] in Hx. injection Hx as <-. destruct IH as [I1 I2]. split; [rewrite I1; reflexivity|constructor; assumption]. }
  destruct (proc_of_int pt) as [p|].
  - destruct p.
    1-3: exfalso; destruct (get_int r) as [x r'|x|]; try discriminate H; (destruct (read_table _ _); [|discriminate H]); cbn [bind] in H;
      (destruct (residue _ x) as [[? ?]|]; [|discriminate H]); cbn [bind] in H; (destruct (set_level_ptrs _ _ _ _); [|discriminate H]); cbn [bind] in H;
      (destruct (nuclear_reactions _ _); discriminate H).
    apply K in H as (es & H1 & H2 & H3). eexists. exists es. split; [exact H1|]. split; [exact H2|exact H3].
  - exfalso. destruct (get_int r) as [x r'|x|]; try discriminate H; destruct (read_table _ _); discriminate H.
Qed.
Print Assumptions C25_electron.

(** *** Examples and counterexamples *)

Definition no_data : nuclear_data := mkn (fun _ => Ok None) (fun _ => Ok (0, true)) (fun _ => Ok (dd 5 0)).
Definition file1 : list bytes := [b "# nu_e on 40Ar"; b "0 1000180400"; b "0.0 1.5 0"; b "# next"; b "2.289868 0.9 1"].

Example C25_example :
  (exists rs tbl, load no_data (unlines file1) = Ok (Nuclear rs tbl) /\ List.length rs = 3%nat /\ map m_type tbl = [0; 1]) /\
  load no_data (unlines (file1 ++ [b "1.0 1.0 1"])) = Er MarleyErr /\
  (exists rs, load no_data (b "3 1000180400 1000080160") = Ok (Electron rs) /\ List.length rs = 12%nat).
Proof.
  split; [do 2 eexists; split; [vm_compute; reflexivity|]; split; reflexivity|].
  split; [vm_compute; reflexivity|]. eexists. split; [vm_compute; reflexivity|]. reflexivity.
Qed.

Lemma file1_no_nl : Forall no_nl file1.
Proof. repeat constructor; intros H; vm_compute in H; repeat destruct H as [H|H]; try discriminate H; exact H. Qed.

(** What is not checked: an empty table, unknown types and negative strengths are
    accepted; a blank line or a line with too few numbers makes the code use
    variables it never set; a comment line ended by CR LF is not a comment. *)
Theorem C25_unchecked_refuted :
  (exists rs, load no_data (unlines [b "0 1000180400"]) = Ok (Nuclear rs [])) /\
  (exists rs m, load no_data (unlines [b "0 1000180400"; b "1.0 -2.0 7"]) = Ok (Nuclear rs [m]) /\ m_type m = 7 /\ units (m_strength m) < 0) /\
  (exists rs m, load no_data (unlines [b "0 1000180400"; b "1.0 2.0 GT"]) = Ok (Nuclear rs [m]) /\ m_type m = 0) /\
  load no_data (unlines (file1 ++ [[]])) = Er Undefined /\
  load no_data (unlines (file1 ++ [b "3.5 0.1"])) = Er Undefined /\
  load no_data (unlines [b "nu_e"; b "1.0 2.0 1"]) = Er Undefined /\
  load no_data (unlines ((b "# comment" ++ [chr 13]) :: file1)) = Er Undefined.
Proof.
  split; [eexists; vm_compute; reflexivity|].
  split; [do 2 eexists; split; [vm_compute; reflexivity|]; split; vm_compute; reflexivity|].
  split; [do 2 eexists; split; [vm_compute; reflexivity|]; vm_compute; reflexivity|].
  repeat split; vm_compute; reflexivity.
Qed.

(** ** C26 for loaded files *)

(** When a decay scheme is known for the residue, the loaded table is matched to it. *)
Theorem C26_loaded : forall nd ls t rs tbl, Forall no_nl ls -> no_nl t ->
  (forall pdg sc, n_scheme nd pdg = Ok (Some sc) -> exists z a cs, sc = fold_left apply_edit cs (new_scheme z a)) ->
  load nd (unlines ls ++ t) = Ok (Nuclear rs tbl) ->
  NoDup (addresses tbl) /\
  Forall (fun r => forall sc thr, n_scheme nd (r_d r) = Ok (Some sc) -> n_threshold nd (r_d r) = Ok thr ->
     r_d r = nucleus_pid (s_Z sc) (s_A sc) /\ exists ms, Forall2 (matched sc thr) ms tbl) rs.
Proof.
  intros nd ls t rs tbl HL Ht HH H.
  apply load_nuclear in H as (code & pt & pdg_b & d & ms & _ & _ & _ & HT & (q & HR) & HS & HX); [|exact HL|exact Ht].
  apply read_table_ok in HT as (_ & _ & HN).
  assert (Hd : Forall (fun r => r_d r = d) rs).
  { unfold nuclear_reactions in HX. rewrite HR in HX. cbn [bind] in HX. apply map_res_in in HX. clear - HX.
    induction HX as [|a r l l' Hr _ IH]; constructor; [|exact IH].
    destruct (ejectile a pt) as [c|]; [|discriminate Hr]. cbn [bind] in Hr. unfold nuclear_reaction in Hr.
    repeat match type of Hr with bind ?x _ = _ => destruct x; [cbn [bind] in Hr|discriminate Hr] end. injection Hr as <-. reflexivity. }
  unfold set_level_ptrs in HS. destruct (n_scheme nd d) as [[sc|]|] eqn:Es; [| |discriminate HS].
  - cbn [bind] in HS. destruct (Z.eqb_spec d (nucleus_pid (s_Z sc) (s_A sc))) as [Ed|]; [|discriminate HS]. cbn [negb] in HS.
    destruct (n_threshold nd d) as [thr|] eqn:Eth; [|discriminate HS]. cbn [bind] in HS. destruct (n_gs nd pdg_b); [|discriminate HS].
    cbn [bind] in HS. destruct (HH d sc Es) as (z0 & a0 & cs & ->). destruct (C26_matched z0 a0 cs thr ms tbl HN HS) as [A B].
    split; [exact B|]. eapply Forall_impl; [|exact Hd]. cbv beta. intros r -> sc' thr' E1 E2.
    rewrite Es in E1. injection E1 as <-. rewrite Eth in E2. injection E2 as <-. split; [exact Ed|]. exists ms. exact A.
  - cbn [bind] in HS. injection HS as <-. split.
    + clear - HN. induction HN as [|m ms Hm _ IH]; [constructor|]. unfold addresses. cbn [flat_map]. rewrite Hm. exact IH.
    + eapply Forall_impl; [|exact Hd]. cbv beta. intros r -> sc thr E. rewrite Es in E. discriminate E.
Qed.
Print Assumptions C26_loaded.
