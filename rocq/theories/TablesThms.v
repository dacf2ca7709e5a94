(** C90: the table of levels and gamma rays for LaTeX. *)
From Coq Require Import List Ascii String ZArith Bool Lia.
From Coq Require Import Floats.SpecFloat.
From Verif Require Import Base Dbl Strings DigitsProofs DblProofs Pdg Names PdgThms React Event Levels Report ReportThms Tables.
Import ListNotations.
Local Open Scope Z_scope.

(** ** Characters of numbers *)

Definition plain (c : ascii) : bool := is_digit c || existsb (Ascii.eqb c) (b "+-./einfa").

Lemma plain_digits t : forallb is_digit t = true -> forallb plain t = true.
Proof. intros H. apply forallb_forall. intros c G. rewrite forallb_forall in H. unfold plain. rewrite (H c G). reflexivity. Qed.
Lemma plain_app s t : forallb plain s = true -> forallb plain t = true -> forallb plain (s ++ t) = true.
Proof. intros H G. rewrite forallb_app, H, G. reflexivity. Qed.
Lemma plain_sub (s t : bytes) : forallb plain t = true -> (forall c, In c s -> In c t) -> forallb plain s = true.
Proof. intros H G. apply forallb_forall. intros c I. rewrite forallb_forall in H. apply H, G, I. Qed.
Lemma plain_int z : forallb plain (show_int z) = true.
Proof.
  unfold show_int. destruct (Z.ltb_spec z 0).
  - apply (plain_app ["-"%char]); [reflexivity|apply plain_digits, digits_all; lia].
  - apply plain_digits, digits_all; lia.
Qed.
Lemma plain_frac t : forallb plain t = true -> forallb plain (frac_str (strip0 t)) = true.
Proof.
  intros H. assert (G : forallb plain (strip0 t) = true) by (apply (plain_sub _ t H); intros c; apply strip0_in).
  unfold frac_str. destruct (strip0 t); [exact G|]. apply (plain_app ["."%char]); [reflexivity|exact G].
Qed.
Lemma plain_g6 x : forallb plain (show_g6 x) = true.
Proof.
  assert (SG : forall s, forallb plain (sign_str s) = true) by (intros [|]; reflexivity).
  destruct x as [s|s| |s m e]; cbn [show_g6]; try (apply plain_app; [apply SG|reflexivity]); [reflexivity|].
  destruct (to_dec 6 (dnum m e) (dden e)) as [D X] eqn:E. apply plain_app; [apply SG|].
  assert (HD : forallb plain (digits D) = true).
  { apply plain_digits, digits_all. pose proof (to_dec_spec 6 (dnum m e) (dden e) ltac:(lia) (dnum_pos m e) (dden_pos e)) as T. rewrite E in T. lia. }
  destruct ((X <? -4) || (6 <=? X)); [|destruct (X <? 0)].
  - apply plain_app; [apply (plain_sub _ _ HD); intros c; apply firstn_in|]. apply plain_app; [apply plain_frac, (plain_sub _ _ HD); intros c; apply skipn_in|].
    apply (plain_app ["e"%char]); [reflexivity|]. unfold show_exp. apply (plain_app [if X <? 0 then "-"%char else "+"%char]); [destruct (X <? 0); reflexivity|].
    destruct (Z.abs X <? 10); [apply (plain_app ["0"%char]); [reflexivity|]|]; apply plain_digits, digits_all; lia.
  - apply (plain_app ["0"%char]); [reflexivity|]. apply plain_frac, plain_app; [|exact HD]. apply forallb_forall. intros c G. apply repeat_spec in G. subst c. reflexivity.
  - apply plain_app; [apply (plain_sub _ _ HD); intros c; apply firstn_in|]. apply plain_frac, (plain_sub _ _ HD). intros c. apply skipn_in.
Qed.
Lemma plain_spin l : forallb plain (spin_parity_string l) = true.
Proof.
  unfold spin_parity_string. apply plain_app; [apply plain_int|]. apply plain_app; [destruct (Z.rem (l_twoJ l) 2 =? 0); reflexivity|].
  destruct (l_parity l); reflexivity.
Qed.

(** ** When the table is printed *)

Lemma gamma_cells_ok all last first gs : (exists t, gamma_cells all last first gs = Ok t) <-> (forall g, In g gs -> exists a l', g_end g = Some a /\ In (a, l') all).
Proof.
  revert first. induction gs as [|g gs IH]; intros first; cbn [gamma_cells].
  - split; [intros _ g []|intros _; eexists; reflexivity].
  - split.
    + intros [t H] g' [<-|Hg].
      * destruct (g_end g) as [a|]; [|discriminate H]. destruct (find _ all) as [[a' l']|] eqn:F; [|discriminate H].
        apply find_some in F as [F1 F2]. cbn [fst] in F2. apply Nat.eqb_eq in F2. subst a'. exists a, l'. split; [reflexivity|exact F1].
      * apply (IH false); [|exact Hg]. destruct (g_end g) as [a|]; [|discriminate H]. destruct (find _ all) as [p|]; [|discriminate H].
        destruct (gamma_cells all last false gs) as [r|]; [eexists; reflexivity|discriminate H].
    + intros H. destruct (H g (or_introl eq_refl)) as (a & l' & -> & Hin).
      destruct (find (fun p => Nat.eqb (fst p) a) all) as [p|] eqn:F.
      * destruct (proj2 (IH false)) as [r ->]; [intros g' Hg; apply H; right; exact Hg|]. cbn [bind]. eexists. reflexivity.
      * exfalso. apply (find_none _ _ F) in Hin. cbn [fst] in Hin. rewrite Nat.eqb_refl in Hin. discriminate Hin.
Qed.

Lemma level_cells_ok s : (exists t, level_cells (s_levels s) (s_levels s) = Ok t) <-> grounded s.
Proof.
  unfold grounded. generalize (s_levels s) at 1 4. intros all. induction (s_levels s) as [|[i l] ls IH]; cbn [level_cells].
  - split; [intros _ i l g []|intros _; eexists; reflexivity].
  - set (last := match ls with [] => true | _ => false end). split.
    + intros [t H] i' l' g [E|Hin] Hg.
      * injection E as <- <-. apply (proj1 (gamma_cells_ok all last true (l_gammas l))); [|exact Hg].
        destruct (gamma_cells all last true (l_gammas l)) as [x|]; [eexists; reflexivity|discriminate H].
      * refine (proj1 IH _ i' l' g Hin Hg). destruct (gamma_cells all last true (l_gammas l)) as [x|]; [|discriminate H]. cbn [bind] in H.
        destruct (level_cells all ls) as [y|]; [eexists; reflexivity|discriminate H].
    + intros H. destruct (proj2 (gamma_cells_ok all last true (l_gammas l))) as [x ->]; [intros g Hg; apply (H i l g); [left; reflexivity|exact Hg]|]. cbn [bind].
      destruct (proj2 IH) as [y ->]; [intros i' l' g Hin Hg; apply (H i' l' g); [right; exact Hin|exact Hg]|]. cbn [bind]. eexists. reflexivity.
Qed.

Lemma level_cells_err all ls e : level_cells all ls = Er e -> e = Undefined.
Proof.
  assert (G : forall last gs first e, gamma_cells all last first gs = Er e -> e = Undefined).
  { intros last. induction gs as [|g gs IH]; intros first e' H; cbn [gamma_cells] in H; [discriminate H|]. destruct (g_end g); [|congruence]. destruct (find _ all); [|congruence].
    destruct (gamma_cells all last false gs) as [r|e1] eqn:E; [discriminate H|]. cbn [bind] in H. rewrite <- (IH false e1 E). congruence. }
  induction ls as [|[i l] ls IH]; cbn [level_cells]; [discriminate|]. destruct (gamma_cells _ _ _ _) as [gs|e1] eqn:E1; [|cbn [bind]; intros H; rewrite <- (G _ _ _ _ E1); congruence].
  cbn [bind]. destruct (level_cells all ls) as [r|e2]; [discriminate|]. cbn [bind]. intros H. apply IH. congruence.
Qed.

(** The table of a nucleus with a known element is printed if every gamma ray has an end level;
    otherwise a null pointer is followed. *)
Theorem C90_printed s e : element_symbol (s_Z s) = Ok e -> 1 <= s_A s <= 999 -> ((exists t, print_latex_table s = Ok t) <-> grounded s) /\ (~ grounded s -> print_latex_table s = Er Undefined).
Proof.
  intros H A. destruct (C83_names _ _ _ H A) as (id & _ & _ & N). rewrite <- level_cells_ok. unfold print_latex_table. rewrite N. cbn [bind]. split; [split|].
  - intros [t G]. destruct (level_cells _ _) as [x|]; [eexists; reflexivity|discriminate G].
  - intros [x ->]. cbn [bind]. eexists. reflexivity.
  - intros G. destruct (level_cells _ _) as [x|e'] eqn:E; [exfalso; apply G; eexists; reflexivity|]. cbn [bind]. rewrite (level_cells_err _ _ _ E). reflexivity.
Qed.
Print Assumptions C90_printed.

(** A mass number that does not fit in three digits and an element without a symbol are
    refused with an exception, whatever the levels are. *)
Theorem C90_refused s : (~ 1 <= s_A s <= 999 \/ s_Z s < 0 -> print_latex_table s = Er MarleyErr) /\
  (1 <= s_A s <= 999 -> 0 <= s_Z s -> forall r, element_symbol (s_Z s) = Er r -> print_latex_table s = Er r).
Proof.
  unfold print_latex_table, caption_names, nuc_id. destruct (Z.ltb_spec (s_Z s) 0), (Z.ltb_spec (s_A s) 1), (Z.ltb_spec 999 (s_A s)); cbn [orb];
    split; try reflexivity; try lia; intros _ _ r ->; reflexivity.
Qed.
Print Assumptions C90_refused.

(** ** Rows *)

(** The cells of a row: the text is cut at every [&] and spaces do not count. *)
Fixpoint cut (c : ascii) (t : bytes) : list bytes :=
  match t with
  | [] => [[]]
  | x :: r => if Ascii.eqb x c then [] :: cut c r else match cut c r with [] => [[x]] | h :: q => (x :: h) :: q end
  end.
Definition despace (t : bytes) : bytes := filter (fun c => negb (Ascii.eqb c " "%char)) t.
Definition cells (t : bytes) : list bytes := map despace (cut "&"%char t).

(** A row of the table: its cells, what ends it, and one line feed. *)
Definition row (cs : list bytes) (ending t : bytes) : Prop :=
  exists body, t = body ++ ending ++ [nl] /\ cells body = cs /\ smooth body.

(** What a gamma ray shows: its energy, its relative intensity, the energy of the level where
    it ends. *)
Definition gamma_shows (all : list (nat * level)) (g : gamma) (cs : list bytes) : Prop :=
  exists a l, g_end g = Some a /\ In (a, l) all /\ cs = [show_g6 (g_energy g); show_g6 (g_ri g); show_g6 (l_energy l)].

(** The rows of a level: one for each gamma ray, and only the first has the energy and the
    spin of the level; one row without gamma ray if there is none. *)
Definition level_shows (all : list (nat * level)) (l : level) (rows : list (list bytes)) : Prop :=
  exists gs, Forall2 (gamma_shows all) (l_gammas l) gs /\
  rows = match gs with
         | [] => [[show_g6 (l_energy l); spin_parity_string l; []; []; []]]
         | g :: r => (show_g6 (l_energy l) :: spin_parity_string l :: g) :: map (fun g => [] :: [] :: g) r
         end.

(** The rows of a level in the text: no page break between them; more space after the last
    one, except at the end of the table. *)
Inductive laid_out (last : bool) : list (list bytes) -> bytes -> Prop :=
  | laid_one cs t : row cs (if last then [] else b " \\ \addlinespace[\ExtraRowSpace]") t -> laid_out last [cs] t
  | laid_more cs cs' rows t u : row cs (b " \\*") t -> laid_out last (cs' :: rows) u -> laid_out last (cs :: cs' :: rows) (t ++ u).

Inductive table_of (all : list (nat * level)) : list (nat * level) -> bytes -> Prop :=
  | table_nil : table_of all [] []
  | table_cons i l ls rows t u : level_shows all l rows -> laid_out (match ls with [] => true | _ => false end) rows t -> table_of all ls u ->
      table_of all ((i, l) :: ls) (t ++ u).

Lemma cut_plain s : forallb plain s = true -> cut "&"%char s = [s].
Proof.
  induction s as [|c s IH]; [reflexivity|]. cbn [forallb cut]. intros H. apply andb_prop in H as [H1 H2]. rewrite (IH H2).
  destruct (Ascii.eqb_spec c "&"%char) as [E|_]; [rewrite E in H1; discriminate H1|reflexivity].
Qed.
Lemma cut_app s t : forallb plain s = true -> cut "&"%char (s ++ t) = match cut "&"%char t with [] => [s] | h :: q => (s ++ h) :: q end.
Proof.
  intros H. assert (N : cut "&"%char t <> []) by (destruct t as [|x t]; cbn [cut]; [discriminate|]; destruct (Ascii.eqb x "&"); [discriminate|]; destruct (cut "&"%char t); discriminate).
  induction s as [|c s IH].
  - cbn [app]. destruct (cut "&"%char t); [contradiction|reflexivity].
  - cbn [forallb] in H. apply andb_prop in H as [H1 H2]. cbn [app cut]. rewrite (IH H2).
    destruct (Ascii.eqb_spec c "&"%char) as [E|_]; [rewrite E in H1; discriminate H1|]. destruct (cut "&"%char t); [contradiction|reflexivity].
Qed.
Lemma despace_plain s : forallb plain s = true -> despace s = s.
Proof.
  induction s as [|c s IH]; [reflexivity|]. cbn [forallb despace filter]. intros H. apply andb_prop in H as [H1 H2]. fold (despace s). rewrite (IH H2).
  destruct (Ascii.eqb_spec c " "%char) as [E|_]; [rewrite E in H1; discriminate H1|reflexivity].
Qed.
Lemma despace_app s t : despace (s ++ t) = despace s ++ despace t.
Proof. unfold despace. induction s as [|c s IH]; [reflexivity|]. cbn [app filter]. rewrite IH. destruct (negb _); reflexivity. Qed.
Lemma smooth_plain s : forallb plain s = true -> smooth s.
Proof. intros H. apply count_occ_not_In. intros G. rewrite forallb_forall in H. specialize (H _ G). discriminate H. Qed.

(** Text, a separator, more text. *)
Lemma cells_sep s t : forallb plain s = true -> cells (s ++ b " & " ++ t) = s :: cells (b " " ++ t).
Proof.
  intros H. unfold cells. rewrite (cut_app s _ H). change (b " & " ++ t) with (" "%char :: "&"%char :: (b " " ++ t)).
  cbn [cut Ascii.eqb Bool.eqb]. cbn [map]. rewrite despace_app, (despace_plain s H). cbn [despace filter Ascii.eqb Bool.eqb negb]. rewrite app_nil_r. reflexivity.
Qed.
Lemma cells_space t : cells (b " " ++ t) = cells t.
Proof.
  unfold cells. change (b " " ++ t) with (" "%char :: t). cbn [cut Ascii.eqb Bool.eqb]. destruct (cut "&"%char t) as [|h q] eqn:E.
  - destruct t as [|x t]; cbn [cut] in E; [discriminate E|]. destruct (Ascii.eqb x "&"); [discriminate E|]. destruct (cut "&"%char t); discriminate E.
  - reflexivity.
Qed.
Lemma cells_last s : forallb plain s = true -> cells s = [s].
Proof. intros H. unfold cells. rewrite (cut_plain s H). cbn [map]. rewrite (despace_plain s H). reflexivity. Qed.

Lemma three x y z : cells (show_g6 x ++ b " & " ++ show_g6 y ++ b " & " ++ show_g6 z) = [show_g6 x; show_g6 y; show_g6 z].
Proof. rewrite cells_sep, cells_space, cells_sep, cells_space, cells_last; try apply plain_g6. reflexivity. Qed.
Lemma smooth_three x y z : smooth (show_g6 x ++ b " & " ++ show_g6 y ++ b " & " ++ show_g6 z).
Proof. repeat apply smooth_app; try apply smooth_g6; reflexivity. Qed.

(** Gamma rays after [pre], which stands for the cells [h]. *)
Lemma gamma_cells_laid all last gs : gs <> [] -> forall first t pre h, gamma_cells all last first gs = Ok t -> smooth pre ->
  (forall u, cells (pre ++ (if first then [] else b " & & ") ++ u) = h ++ cells u) ->
  exists cs, Forall2 (gamma_shows all) gs cs /\ laid_out last (match cs with [] => [] | g :: r => (h ++ g) :: map (fun g => [] :: [] :: g) r end) (pre ++ t).
Proof.
  induction gs as [|g gs IH]; [congruence|]. intros _ first t pre h H SP HP. cbn [gamma_cells] in H.
  destruct (g_end g) as [a|] eqn:Ea; [|discriminate H]. destruct (find _ all) as [[a' l']|] eqn:F; [|discriminate H].
  apply find_some in F as [F1 F2]. cbn [fst] in F2. apply Nat.eqb_eq in F2. subst a'. cbn [snd] in H.
  destruct (gamma_cells all last false gs) as [r|] eqn:E; [|discriminate H]. cbn [bind] in H.
  match type of H with Ok ?x = Ok ?y => assert (Ht : x = y) by congruence end. clear H.
  set (body := show_g6 (g_energy g) ++ b " & " ++ show_g6 (g_ri g) ++ b " & " ++ show_g6 (l_energy l')) in *.
  assert (C : cells (pre ++ (if first then [] else b " & & ") ++ body) = h ++ [show_g6 (g_energy g); show_g6 (g_ri g); show_g6 (l_energy l')]).
  { rewrite HP. f_equal. apply three. }
  assert (SB : smooth (pre ++ (if first then [] else b " & & ") ++ body)).
  { apply smooth_app; [exact SP|]. apply smooth_app; [destruct first; reflexivity|apply smooth_three]. }
  assert (HG : gamma_shows all g [show_g6 (g_energy g); show_g6 (g_ri g); show_g6 (l_energy l')]) by (exists a, l'; split; [exact Ea|split; [exact F1|reflexivity]]).
  destruct gs as [|g' gs].
  - cbn [gamma_cells] in E. assert (r = []) by congruence. subst r. rewrite app_nil_r in Ht.
    exists [[show_g6 (g_energy g); show_g6 (g_ri g); show_g6 (l_energy l')]]. split; [constructor; [exact HG|constructor]|]. cbn [map].
    apply laid_one. exists (pre ++ (if first then [] else b " & & ") ++ body). split; [|split; [exact C|exact SB]].
    rewrite <- Ht. unfold level_end, body. destruct last; rewrite <- !app_assoc; reflexivity.
  - destruct (IH ltac:(discriminate) false r [] [[]; []] E eq_refl) as (cs & HF & HL).
    { intros u. cbn [app]. unfold cells. change (b " & & " ++ u) with (" "%char :: "&"%char :: " "%char :: "&"%char :: (b " " ++ u)).
      cbn [cut Ascii.eqb Bool.eqb map despace filter negb]. change (map despace (cut "&"%char (b " " ++ u))) with (cells (b " " ++ u)). rewrite cells_space. reflexivity. }
    exists ([show_g6 (g_energy g); show_g6 (g_ri g); show_g6 (l_energy l')] :: cs). split; [constructor; [exact HG|exact HF]|].
    inversion HF as [|? c ? cs' _ _]; subst cs. cbn [map]. cbn [app] in HL.
    replace (pre ++ t) with (((pre ++ (if first then [] else b " & & ") ++ body) ++ b " \\*" ++ [nl]) ++ r) by (rewrite <- Ht; unfold body; rewrite <- !app_assoc; reflexivity).
    apply laid_more; [|exact HL]. eexists. split; [reflexivity|]. split; [exact C|exact SB].
Qed.

Lemma level_cells_table all ls t : level_cells all ls = Ok t -> table_of all ls t.
Proof.
  revert t. induction ls as [|[i l] ls IH]; intros t H; cbn [level_cells] in H; [assert (t = []) by congruence; subst t; constructor|].
  set (last := match ls with [] => true | _ => false end) in *.
  destruct (gamma_cells all last true (l_gammas l)) as [gs|] eqn:E1; [|discriminate H]. cbn [bind] in H. destruct (level_cells all ls) as [r|]; [|discriminate H]. cbn [bind] in H.
  match type of H with Ok ?x = Ok ?y => assert (Ht : x = y) by congruence end. clear H. specialize (IH r eq_refl).
  destruct (l_gammas l) as [|g q] eqn:Eg.
  - cbn [gamma_cells] in E1. assert (gs = []) by congruence. subst gs.
    replace t with ((show_g6 (l_energy l) ++ b " & " ++ spin_parity_string l ++ b " & " ++ b " &  &" ++ level_end last) ++ r) by (rewrite <- Ht, <- !app_assoc; reflexivity).
    apply (table_cons all i l ls [[show_g6 (l_energy l); spin_parity_string l; []; []; []]]); [|apply laid_one|exact IH].
    + exists []. rewrite Eg. split; [constructor|reflexivity].
    + exists (show_g6 (l_energy l) ++ b " & " ++ spin_parity_string l ++ b " & " ++ b " &  &"). split; [|split].
      * fold last. unfold level_end. destruct last; rewrite <- !app_assoc; reflexivity.
      * rewrite cells_sep by apply plain_g6. rewrite cells_space, (cells_sep (spin_parity_string l)) by apply plain_spin. reflexivity.
      * pose proof (smooth_plain _ (plain_spin l)) as SS; pose proof (smooth_g6 (l_energy l)) as SE;
        unfold smooth in *; rewrite !lines_app, ?SS, ?SE; reflexivity.
  - destruct (gamma_cells_laid all last (g :: q) ltac:(discriminate) true gs (show_g6 (l_energy l) ++ b " & " ++ spin_parity_string l ++ b " & ")
      [show_g6 (l_energy l); spin_parity_string l] E1) as (cs & HF & HL).
    { pose proof (smooth_plain _ (plain_spin l)) as SS; pose proof (smooth_g6 (l_energy l)) as SE;
        unfold smooth in *; rewrite !lines_app, ?SS, ?SE; reflexivity. }
    { intros u. rewrite <- !app_assoc. change ([] ++ u) with u. rewrite (cells_sep (show_g6 (l_energy l))) by apply plain_g6. rewrite cells_space.
      rewrite (cells_sep (spin_parity_string l)) by apply plain_spin. rewrite cells_space. reflexivity. }
    replace t with (((show_g6 (l_energy l) ++ b " & " ++ spin_parity_string l ++ b " & ") ++ gs) ++ r) by (rewrite <- Ht, <- !app_assoc; reflexivity).
    eapply table_cons; [|exact HL|exact IH]. exists cs. rewrite Eg. split; [exact HF|].
    inversion HF; subst cs. reflexivity.
Qed.

(** ** The whole text *)

(** Everything before the rows and after them depends only on the nucleus. Between them are the
    rows of all levels in order. The text before the rows declares five columns, and gives the
    mass number and the symbol of the element in the caption of the first page and in that of
    the other pages, each followed by the five headings. *)
Definition headings : list bytes :=
  [b "{\multirow{3}{2cm}{\centering\textbf{LevelEnergy(keV)}}}"; b "{\multirow{3}{2cm}{\centering\textbf{Spin-Parity}}}";
   b "{\multirow{3}{2cm}{\centering\textbf{$\boldsymbol{\gamma}$Energy(keV)}}}"; b "{\multirow{3}{2cm}{\centering\textbf{$\boldsymbol{\gamma}$RI}}}";
   b "{\multirow{3}{2.5cm}{\centering\textbf{FinalLevelEnergy(keV)}}}"].
Definition no_lines (t : bytes) : bytes := filter (fun c => negb (Ascii.eqb c nl)) t.

(** The columns that the argument of longtable declares: options in brackets, comments and
    blanks do not count. *)
Fixpoint columns (opt com : bool) (t : bytes) : bytes :=
  match t with
  | [] => []
  | c :: r =>
      if Ascii.eqb c nl then columns opt false r
      else if com then columns opt com r
      else if Ascii.eqb c "%"%char then columns opt true r
      else if Ascii.eqb c "["%char then columns true com r
      else if Ascii.eqb c "]"%char then columns false com r
      else if opt || Ascii.eqb c " "%char then columns opt com r
      else c :: columns opt com r
  end.

Theorem C90_table s e t : element_symbol (s_Z s) = Ok e -> 1 <= s_A s <= 999 -> print_latex_table s = Ok t ->
  exists start p1 h1 p2 h2 p3 rows,
    t = start ++ b "\begin{document}" ++ [nl] ++ b "\begin{center}" ++ [nl] ++ b "\begin{longtable}{" ++ [nl] ++ p1
        ++ b "\caption{\textbf{Levels and $\boldsymbol{\gamma}$ transitions " ++ [nl]
        ++ b " for \isotope[\boldsymbol{" ++ digits (s_A s) ++ b "}]{\textbf{" ++ e ++ b "}} " ++ [nl] ++ b "}}\\" ++ [nl] ++ p2 ++ h1
        ++ b "\midrule" ++ [nl] ++ b "\endfirsthead" ++ [nl] ++ b "\caption[]{\textbf{Levels and $\boldsymbol{\gamma}$ transitions " ++ [nl]
        ++ b " for \isotope[\boldsymbol{" ++ digits (s_A s) ++ b "}]{\textbf{" ++ e ++ b "}} " ++ [nl] ++ b " -- \textit{continued}}} \\" ++ [nl] ++ p2 ++ h2
        ++ b "\midrule" ++ [nl] ++ b "\noalign{\vspace{-\ExtraRowSpace}}" ++ [nl] ++ b "\endhead" ++ [nl] ++ p3 ++ rows
        ++ b "\end{longtable}" ++ [nl] ++ b "\end{center}" ++ [nl] ++ b "\end{document}" ++ [nl]
    /\ (exists u, h1 = u ++ b " \\" ++ [nl] ++ b "& & & & \\" ++ [nl] ++ b "& & & & \\" ++ [nl] /\ cells (no_lines u) = headings)
    /\ h2 = h1 /\ columns false false p1 = b "ScSSS}"
    /\ table_of (s_levels s) (s_levels s) rows.
Proof.
  intros H A P. destruct (C83_names _ _ _ H A) as (id & _ & _ & N). unfold print_latex_table in P. rewrite N in P. cbn [bind] in P.
  destruct (level_cells (s_levels s) (s_levels s)) as [rows|] eqn:R; [|discriminate P]. cbn [bind] in P.
  match type of P with Ok ?x = Ok ?y => assert (Ht : x = y) by congruence end. clear P.
  pose proof (level_cells_table _ _ _ R) as T. unfold caption_beginning in Ht. cbn [fst snd] in Ht.
  set (u := b "{\multirow{3}{2cm}{\centering\textbf{Level Energy (keV)}}}" ++ [nl]
    ++ b "& {\multirow{3}{2cm}{\centering\textbf{Spin-Parity}}}" ++ [nl]
    ++ b "& {\multirow{3}{2cm}{\centering\textbf{$\boldsymbol{\gamma}$ Energy (keV)}}}" ++ [nl]
    ++ b "& {\multirow{3}{2cm}{\centering\textbf{$\boldsymbol{\gamma}$ RI}}}" ++ [nl]
    ++ b "& {\multirow{3}{2.5cm}{\centering\textbf{Final Level Energy (keV)}}}").
  set (p2 := b "\toprule" ++ [nl] ++ b "%{\centering\textbf{Level Energy (keV)}}" ++ [nl] ++ b "%& {\centering\textbf{Spin-Parity}}" ++ [nl]
    ++ b "%& {\centering\textbf{$\boldsymbol{\gamma}$ Energy (keV)}}" ++ [nl] ++ b "%& {\centering\textbf{$\boldsymbol{\gamma}$ RI}}" ++ [nl]
    ++ b "%& {\centering\textbf{Final Energy (keV)}} \\" ++ [nl]).
  set (h := u ++ b " \\" ++ [nl] ++ b "& & & & \\" ++ [nl] ++ b "& & & & \\" ++ [nl]).
  exists (b "\documentclass[12pt]{article}" ++ [nl] ++ [nl] ++ b "\usepackage{amsmath}" ++ [nl] ++ b "\usepackage{booktabs}" ++ [nl]
    ++ b "\usepackage[justification=justified," ++ [nl] ++ b "width=\textwidth," ++ [nl] ++ b "labelformat=empty]{caption}" ++ [nl]
    ++ b "\usepackage[top=1in, bottom=1in, left=0.25in, right=0.25in]{geometry}" ++ [nl] ++ b "\usepackage{isotope}" ++ [nl]
    ++ b "\usepackage{longtable}" ++ [nl] ++ b "\usepackage{multirow}" ++ [nl] ++ b "\usepackage{siunitx}" ++ [nl] ++ [nl]
    ++ b "\newcommand{\ExtraRowSpace}{1cm}" ++ [nl] ++ [nl]),
   (List.concat (map ln ["S[table-number-alignment = center,"; "  table-text-alignment = center]"; "c"; "S[table-number-alignment = center,"; "  table-text-alignment = center]";
      "%  table-column-width = 2cm]"; "S[table-number-alignment = center,"; "  table-text-alignment = center]"; "S[table-number-alignment = center,"; "  table-text-alignment = center]"; "}"]%string)),
   h, p2, h,
   (List.concat (map ln ["\bottomrule \multicolumn{4}{r}{\textit{Continued on next page}} \\"; "\endfoot"; "\bottomrule"; "\endlastfoot"; "% Table data"; ""]%string)), rows.
  split; [|split; [exists u; split; [reflexivity|vm_compute; reflexivity]|split; [reflexivity|split; [vm_compute; reflexivity|exact T]]]].
  rewrite <- Ht, <- !app_assoc. reflexivity.
Qed.
Print Assumptions C90_table.

(** Every brace that is opened is closed, in the right order. *)
Fixpoint depth (n : nat) (t : bytes) : option nat :=
  match t with
  | [] => Some n
  | c :: r => if Ascii.eqb c "{"%char then depth (S n) r
              else if Ascii.eqb c "}"%char then match n with O => None | S m => depth m r end
              else depth n r
  end.
Definition braceless (t : bytes) : Prop := forall n, depth n t = Some n.

Lemma depth_app s t n : depth n (s ++ t) = match depth n s with Some m => depth m t | None => None end.
Proof.
  revert n. induction s as [|c s IH]; intros n; [reflexivity|]. cbn [app depth]. destruct (Ascii.eqb c "{"); [apply IH|]. destruct (Ascii.eqb c "}"); [|apply IH].
  destruct n; [reflexivity|apply IH].
Qed.
Lemma braceless_app s t : braceless s -> braceless t -> braceless (s ++ t).
Proof. intros H G n. rewrite depth_app, H. apply G. Qed.
Lemma braceless_plain s : forallb plain s = true -> braceless s.
Proof.
  intros H n. induction s as [|c s IH]; [reflexivity|]. cbn [forallb] in H. apply andb_prop in H as [H1 H2]. cbn [depth].
  destruct (Ascii.eqb_spec c "{"%char) as [E|_]; [rewrite E in H1; discriminate H1|]. destruct (Ascii.eqb_spec c "}"%char) as [E|_]; [rewrite E in H1; discriminate H1|]. apply IH, H2.
Qed.
Lemma braceless_gammas all last gs : forall first t, gamma_cells all last first gs = Ok t -> braceless t.
Proof.
  induction gs as [|g gs IH]; intros first t H; cbn [gamma_cells] in H; [assert (t = []) by congruence; subst t; intros n; reflexivity|].
  destruct (g_end g); [|discriminate H]. destruct (find _ all) as [p|]; [|discriminate H]. destruct (gamma_cells all last false gs) as [r|] eqn:E; [|discriminate H].
  cbn [bind] in H. match type of H with Ok ?x = Ok ?y => assert (Ht : x = y) by congruence end. rewrite <- Ht.
  apply braceless_app; [destruct first; intros k; reflexivity|]. apply braceless_app; [apply braceless_plain, plain_g6|]. apply braceless_app; [intros k; reflexivity|].
  apply braceless_app; [apply braceless_plain, plain_g6|]. apply braceless_app; [intros k; reflexivity|]. apply braceless_app; [apply braceless_plain, plain_g6|].
  apply braceless_app; [|exact (IH false r E)]. destruct gs; [unfold level_end; destruct last|]; intros k; reflexivity.
Qed.
Lemma braceless_rows all ls : forall t, level_cells all ls = Ok t -> braceless t.
Proof.
  induction ls as [|[i l] ls IH]; intros t H; cbn [level_cells] in H; [assert (t = []) by congruence; subst t; intros n; reflexivity|].
  destruct (gamma_cells _ _ _ _) as [gs|] eqn:E1; [|discriminate H]. cbn [bind] in H. destruct (level_cells all ls) as [r|]; [|discriminate H]. cbn [bind] in H.
  match type of H with Ok ?x = Ok ?y => assert (Ht : x = y) by congruence end. rewrite <- Ht.
  apply braceless_app; [apply braceless_plain, plain_g6|]. apply braceless_app; [intros n; reflexivity|]. apply braceless_app; [apply braceless_plain, plain_spin|].
  apply braceless_app; [intros n; reflexivity|]. apply braceless_app; [|apply braceless_app; [exact (braceless_gammas _ _ _ _ _ E1)|exact (IH r eq_refl)]].
  destruct (l_gammas l); [|intros n; reflexivity]. unfold level_end. destruct ls; intros n; reflexivity.
Qed.

Theorem C90_braces s t : print_latex_table s = Ok t -> depth 0 t = Some 0%nat.
Proof.
  unfold print_latex_table. intros P. destruct (caption_names (s_Z s) (s_A s)) as [[m e]|] eqn:N; [|discriminate P]. cbn [bind] in P.
  destruct (level_cells _ _) as [rows|] eqn:R; [|discriminate P]. cbn [bind] in P. match type of P with Ok ?x = Ok ?y => assert (Ht : x = y) by congruence end. rewrite <- Ht.
  pose proof (braceless_rows _ _ _ R) as B.
  assert (M : braceless m /\ braceless e).
  { unfold caption_names in N. destruct (nuc_id (s_Z s) (s_A s)) as [id|] eqn:I; [|discriminate N]. cbn [bind] in N.
    unfold nuc_id in I. destruct ((s_Z s <? 0) || (s_A s <? 1) || (999 <? s_A s)) eqn:K; [discriminate I|].
    destruct (element_symbol (s_Z s)) as [y|] eqn:Y; [|discriminate I].
    apply orb_false_iff in K as [K K3]. apply orb_false_iff in K as [K1 K2]. apply Z.ltb_ge in K1, K2, K3.
    destruct (C83_names _ _ _ Y (conj K2 K3)) as (id' & J & _ & N'). unfold nuc_id in J. rewrite Y in J.
    replace ((s_Z s <? 0) || (s_A s <? 1) || (999 <? s_A s)) with false in J by (symmetry; rewrite !orb_false_iff, !Z.ltb_ge; lia).
    unfold caption_names in N'. assert (JJ : nuc_id (s_Z s) (s_A s) = Ok id).
    { unfold nuc_id. replace ((s_Z s <? 0) || (s_A s <? 1) || (999 <? s_A s)) with false by (symmetry; rewrite !orb_false_iff, !Z.ltb_ge; lia). rewrite Y. exact I. }
    rewrite JJ in N'. cbn [bind] in N'. rewrite N in N'. injection N' as -> ->. split.
    - apply braceless_plain, plain_digits, digits_all. lia.
    - destruct (element_letters _ _ Y) as [L _]. intros n. clear - L. induction y as [|c y IH]; [reflexivity|]. cbn [forallb] in L. apply andb_prop in L as [L1 L2]. cbn [depth].
      destruct (Ascii.eqb_spec c "{"%char) as [E|_]; [rewrite E in L1; discriminate L1|]. destruct (Ascii.eqb_spec c "}"%char) as [E|_]; [rewrite E in L1; discriminate L1|]. apply IH, L2. }
  destruct M as [M1 M2]. unfold caption_beginning. cbn [fst snd].
  assert (ST : forall s u n k r, depth n s = Some k -> depth k u = Some r -> depth n (s ++ u) = Some r) by (intros s' u n k r G1 G2; rewrite depth_app, G1; exact G2).
  rewrite <- !app_assoc.
  repeat (eapply ST; [first [apply M1 | apply M2 | apply B | vm_compute; reflexivity]|]). reflexivity.
Qed.
Print Assumptions C90_braces.

(** What follows the first place of a text in another one. *)
Fixpoint starts (w t : bytes) : option bytes :=
  match w, t with
  | [], _ => Some t
  | x :: w', y :: t' => if Ascii.eqb x y then starts w' t' else None
  | _, [] => None
  end.
Fixpoint after (w t : bytes) : option bytes :=
  match starts w t with
  | Some r => Some r
  | None => match t with [] => None | _ :: t' => after w t' end
  end.
Lemma starts_ok w : forall t r, starts w t = Some r -> t = w ++ r.
Proof.
  induction w as [|x w IH]; intros t r H; cbn [starts] in H; [cbn [app]; congruence|]. destruct t as [|y t]; [discriminate H|].
  destruct (Ascii.eqb_spec x y) as [->|]; [|discriminate H]. cbn [app]. rewrite <- (IH t r H). reflexivity.
Qed.
Lemma after_ok w t r : after w t = Some r -> exists p, t = p ++ w ++ r.
Proof.
  induction t as [|y t IH]; cbn [after]; intros H.
  - exists []. destruct (starts w []) as [q|] eqn:E; [|discriminate H]. apply starts_ok in E. cbn [app]. congruence.
  - destruct (starts w (y :: t)) as [q|] eqn:E; [exists []; apply starts_ok in E; cbn [app]; congruence|]. destruct (IH H) as [p ->]. exists (y :: p). reflexivity.
Qed.

(** The headings speak of keV, but the numbers are those of the levels, in MeV: a level at
    1.5 MeV is shown as 1.5 and not as 1500. *)
Definition level15 : scheme := mksc 18 40 1 [(0%nat, mkl (S754_finite false 3 (-1)) 0 true [])].
Theorem C90_units_refuted : exists t p q r, print_latex_table level15 = Ok t /\
  t = p ++ b "{\multirow{3}{2cm}{\centering\textbf{Level Energy (keV)}}}" ++ q ++ [nl] ++ b "1.5 & 0+ &  &  &" ++ [nl] ++ r.
Proof.
  assert (C : exists t, print_latex_table level15 = Ok t /\ exists u r, after (b "{\multirow{3}{2cm}{\centering\textbf{Level Energy (keV)}}}") t = Some u /\
    after ([nl] ++ b "1.5 & 0+ &  &  &" ++ [nl]) u = Some r).
  { eexists. split; [vm_compute; reflexivity|]. eexists. eexists. split; vm_compute; reflexivity. }
  destruct C as (t & P & u & r & H1 & H2). apply after_ok in H1 as [p H1]. apply after_ok in H2 as [q H2]. exists t, p, q, r. split; [exact P|].
  rewrite H1, H2, <- !app_assoc. reflexivity.
Qed.
Print Assumptions C90_units_refuted.

(** A scheme with three levels, the highest with two gamma rays. *)
Definition levels3 : scheme := mksc 19 40 3
  [(0%nat, mkl (S754_zero false) 8 false []);
   (1%nat, mkl (S754_finite false 1 (-5)) 6 false [mkg (S754_finite false 1 (-5)) (S754_finite false 1 0) (Some 0%nat)]);
   (2%nat, mkl (S754_finite false 3 (-2)) 4 false [mkg (S754_finite false 3 (-2)) (S754_finite false 1 (-2)) (Some 0%nat);
                                                   mkg (S754_finite false 23 (-5)) (S754_finite false 3 (-2)) (Some 1%nat)])].
Example C90_case : (exists t, print_latex_table levels3 = Ok t) /\ grounded levels3 /\ element_symbol 19 = Ok (b "K") /\
  level_cells (s_levels levels3) (s_levels levels3) = Ok (
    b "0 & 4- &  &  & \\ \addlinespace[\ExtraRowSpace]" ++ [nl] ++
    b "0.03125 & 3- & 0.03125 & 1 & 0 \\ \addlinespace[\ExtraRowSpace]" ++ [nl] ++
    b "0.75 & 2- & 0.75 & 0.25 & 0 \\*" ++ [nl] ++
    b " & & 0.71875 & 0.75 & 0.03125" ++ [nl]).
Proof.
  assert (H : exists t, print_latex_table levels3 = Ok t) by (eexists; vm_compute; reflexivity).
  split; [exact H|]. split; [apply (proj1 (C90_printed levels3 (b "K") eq_refl ltac:(cbn; lia))); exact H|]. split; vm_compute; reflexivity.
Qed.
