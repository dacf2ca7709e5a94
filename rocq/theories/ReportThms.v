(** C83: texts for people. *)
From Coq Require Import List Ascii String ZArith Bool Lia.
From Coq Require Import Floats.SpecFloat.
From Verif Require Import Base Dbl DigitsProofs DblProofs Strings Pdg Names PdgThms React Event Levels Report.
Import ListNotations.
Local Open Scope Z_scope.

(** ** Spins *)

(** The usual notation of a spin of j/2: an integer, or an odd number over two. *)
Definition spin_text (j : Z) : bytes := if Z.even j then digits (j / 2) else digits j ++ b "/2".

Lemma halves j : 0 <= j -> Z.quot j 2 = j / 2 /\ Z.rem j 2 = j mod 2 /\ (Z.even j = true <-> j mod 2 = 0) /\ (Z.even j = false <-> j mod 2 = 1).
Proof.
  intros H. rewrite Z.quot_div_nonneg, Z.rem_mod_nonneg by lia. split; [reflexivity|]. split; [reflexivity|].
  pose proof (Zmod_even j) as E. destruct (Z.even j); rewrite E; split; split; intros; try reflexivity; try discriminate; lia.
Qed.

Lemma show_nonneg z : 0 <= z -> show_int z = digits z.
Proof. intros H. unfold show_int. destruct (Z.ltb_spec z 0); [lia|reflexivity]. Qed.

Theorem C83_event_spin ev : 0 <= e_twoJ ev -> event_spin ev = spin_text (e_twoJ ev) ++ [if e_par ev then "+"%char else "-"%char].
Proof.
  intros H. destruct (halves _ H) as (E1 & E2 & E3 & E4). unfold event_spin, spin_text, parity_to_char. rewrite E1, E2. f_equal.
  pose proof (Z.div_pos (e_twoJ ev) 2 H ltac:(lia)). rewrite !show_nonneg by lia. destruct (Z.even (e_twoJ ev)).
  - rewrite (proj1 E3 eq_refl). reflexivity.
  - rewrite (proj1 E4 eq_refl). reflexivity.
Qed.
Print Assumptions C83_event_spin.

(** The spin of a compound nucleus is printed as a decimal number. *)
Theorem C83_compound_spin j : 0 <= j -> exists k, 0 <= k /\ ((j = 2 * k /\ compound_spin j = digits k) \/ (j = 2 * k + 1 /\ compound_spin j = digits k ++ b ".5")).
Proof.
  intros H. destruct (halves _ H) as (E1 & E2 & _). unfold compound_spin. rewrite E1, E2. exists (j / 2).
  pose proof (Z.div_pos j 2 H ltac:(lia)). rewrite show_nonneg by lia. split; [assumption|].
  pose proof (Z.div_mod j 2 ltac:(lia)). pose proof (Z.mod_pos_bound j 2 ltac:(lia)).
  destruct (Z.eqb_spec (j mod 2) 0).
  - left. rewrite app_nil_r. split; [lia|reflexivity].
  - right. split; [lia|reflexivity].
Qed.
Print Assumptions C83_compound_spin.

(** The spin-parity of a level is printed in the usual notation if the spin is an integer. *)
Theorem C83_level_spin l : 0 <= l_twoJ l -> (spin_parity_string l = spin_text (l_twoJ l) ++ [if l_parity l then "+"%char else "-"%char] <-> exists k, l_twoJ l = 2 * k).
Proof.
  intros H. destruct (halves _ H) as (E1 & E2 & E3 & E4). unfold spin_parity_string, spin_text, parity_to_char. rewrite E1, E2.
  pose proof (Z.div_pos (l_twoJ l) 2 H ltac:(lia)) as P. rewrite show_nonneg by lia.
  pose proof (Z.div_mod (l_twoJ l) 2 ltac:(lia)) as D. destruct (Z.even (l_twoJ l)).
  - rewrite (proj1 E3 eq_refl) in *. cbn [Z.eqb]. split; [intros _; exists (l_twoJ l / 2); lia|intros _; reflexivity].
  - rewrite (proj1 E4 eq_refl) in *. change (1 =? 0) with false. cbn match. split; [|intros [k Hk]; exfalso; rewrite Hk in D; lia].
    intros G. exfalso. rewrite app_assoc in G. apply app_inj_tail in G as [G _]. apply app_inv_tail in G.
    apply (f_equal digits_val) in G. rewrite !digits_val_digits in G by lia. lia.
Qed.
Print Assumptions C83_level_spin.

(** A half-integer spin of 3/2 is printed as 1/2, which is another spin; that of 1/2 as 0/2. *)
Theorem C83_level_spin_refuted : ~ (forall l, 0 <= l_twoJ l -> spin_parity_string l = spin_text (l_twoJ l) ++ [if l_parity l then "+"%char else "-"%char])
  /\ (forall e p gs, spin_parity_string (mkl e 3 p gs) = spin_text 1 ++ [if p then "+"%char else "-"%char]).
Proof.
  split; [|intros e [|] gs; reflexivity].
  intros H. specialize (H (mkl dbl_zero 1 true []) ltac:(cbn; lia)). vm_compute in H. discriminate H.
Qed.
Print Assumptions C83_level_spin_refuted.

Example C83_spin_case : event_spin (mke [] [] dbl_zero 5 false) = b "5/2-" /\ event_spin (mke [] [] dbl_zero 4 true) = b "2+" /\ compound_spin 7 = b "3.5"
  /\ spin_parity_string (mkl dbl_zero 6 false []) = b "3-" /\ spin_parity_string (mkl dbl_zero 7 false []) = b "3/2-".
Proof. repeat split. Qed.

(** ** Level schemes *)

(** Every gamma ray leads to a level of the scheme. *)
Definition grounded (s : scheme) : Prop := forall i l g, In (i, l) (s_levels s) -> In g (l_gammas l) ->
  exists a l', g_end g = Some a /\ In (a, l') (s_levels s).

Lemma gamma_lines_ok all gs : (exists t, gamma_lines all gs = Ok t) <-> (forall g, In g gs -> exists a l', g_end g = Some a /\ In (a, l') all).
Proof.
  induction gs as [|g gs IH]; cbn [gamma_lines].
  - split; [intros _ g []|intros _; eexists; reflexivity].
  - split.
    + intros [t H] g' [<-|Hg].
      * destruct (g_end g) as [a|]; [|discriminate H]. destruct (find _ all) as [[a' l']|] eqn:F; [|discriminate H].
        apply find_some in F as [F1 F2]. cbn [fst] in F2. apply Nat.eqb_eq in F2. subst a'. exists a, l'. split; [reflexivity|exact F1].
      * apply IH; [|exact Hg]. destruct (g_end g) as [a|]; [|discriminate H]. destruct (find _ all) as [p|]; [|discriminate H].
        destruct (gamma_lines all gs) as [r|]; [eexists; reflexivity|discriminate H].
    + intros H. destruct (H g (or_introl eq_refl)) as (a & l' & -> & Hin).
      destruct (find (fun p => Nat.eqb (fst p) a) all) as [p|] eqn:F.
      * destruct (proj2 IH) as [r ->]; [intros g' Hg; apply H; right; exact Hg|]. cbn [bind]. eexists. reflexivity.
      * exfalso. apply (find_none _ _ F) in Hin. cbn [fst] in Hin. rewrite Nat.eqb_refl in Hin. discriminate Hin.
Qed.

Lemma gamma_lines_err all gs e : gamma_lines all gs = Er e -> e = Undefined.
Proof.
  induction gs as [|g gs IH]; cbn [gamma_lines]; [discriminate|]. destruct (g_end g); [|congruence]. destruct (find _ all); [|congruence].
  destruct (gamma_lines all gs); cbn [bind]; [discriminate|]. intros H. apply IH. congruence.
Qed.

(** The report on a level scheme is printed if every gamma ray has an end level; otherwise a
    null pointer is followed. *)
Theorem C83_report s : (exists t, print_report s = Ok t) <-> grounded s.
Proof.
  unfold print_report, grounded. generalize (s_levels s) at 1 4. intros all. induction (s_levels s) as [|[i l] ls IH]; cbn [report_lines].
  - split; [intros _ i l g []|intros _; eexists; reflexivity].
  - split.
    + intros [t H] i' l' g [E|Hin] Hg.
      * injection E as <- <-. apply (proj1 (gamma_lines_ok all (l_gammas l))); [|exact Hg].
        destruct (gamma_lines all (l_gammas l)) as [x|]; [eexists; reflexivity|discriminate H].
      * refine (proj1 IH _ i' l' g Hin Hg). destruct (gamma_lines all (l_gammas l)) as [x|]; [|discriminate H]. cbn [bind] in H.
        destruct (report_lines all ls) as [y|]; [eexists; reflexivity|discriminate H].
    + intros H. destruct (proj2 (gamma_lines_ok all (l_gammas l))) as [x ->]; [intros g Hg; apply (H i l g); [left; reflexivity|exact Hg]|]. cbn [bind].
      destruct (proj2 IH) as [y ->]; [intros i' l' g Hin Hg; apply (H i' l' g); [right; exact Hin|exact Hg]|]. cbn [bind]. eexists. reflexivity.
Qed.
Print Assumptions C83_report.

Example C83_report_case : let one := rnd64 false 3 2 in let s := mksc 19 40 2 [(0%nat, mkl dbl_zero 8 false []); (1%nat, mkl one 4 true [mkg one one (Some 0%nat)])] in
  grounded s /\ print_report s = Ok (b "Level at 0 MeV has spin-parity 4-" ++ [nl] ++ b "Level at 1.5 MeV has spin-parity 2+" ++ [nl]
    ++ b "  has a gamma with energy 1.5 MeV (transition to level at 0 MeV)" ++ [nl] ++ b "    and relative intensity 1.5" ++ [nl]).
Proof.
  split; [|vm_compute; reflexivity]. intros i l g [H|[H|[]]] Hg; injection H as <- <-; cbn in Hg; [contradiction|]. destruct Hg as [<-|[]].
  exists 0%nat. eexists. split; [reflexivity|]. left. reflexivity.
Qed.

(** ** Nuclides *)

Definition symbol_ok (s : bytes) : bool :=
  match s with
  | [c] => ceq (upper c) c && negb (among whitespace c) && negb (is_digit c)
  | [c; d] => ceq (upper c) c && ceq (lower (upper d)) d && negb (among whitespace c) && negb (among whitespace d) && negb (is_digit c) && negb (is_digit d)
      && negb (ceq (upper d) " "%char) && negb (among whitespace (lower (upper d)))
  | _ => false
  end.
Lemma symbols_ok z s : element_symbol z = Ok s -> symbol_ok s = true.
Proof.
  unfold element_symbol. destruct (assoc z element_symbols) as [w|] eqn:E; [|discriminate]. intros H. injection H as <-.
  apply assoc_in in E. assert (T : forallb (fun p => symbol_ok (b (snd p))) element_symbols = true) by (vm_compute; reflexivity).
  rewrite forallb_forall in T. exact (T _ E).
Qed.

Lemma lower_last_app s c d : lower_last (s ++ [c; d]) = s ++ [c; lower d].
Proof.
  induction s as [|x s IH]; [reflexivity|]. cbn [app]. destruct (s ++ [c; d]) as [|y r] eqn:E; [destruct s; discriminate E|].
  change (lower_last (x :: y :: r)) with (x :: lower_last (y :: r)). rewrite IH. reflexivity.
Qed.
Lemma trim_right_keep s c : among whitespace c = false -> trim_right whitespace (s ++ [c]) = s ++ [c].
Proof.
  intros H. induction s as [|x s IH]; cbn [app trim_right]; [rewrite H; reflexivity|]. rewrite IH. destruct (s ++ [c]) eqn:E; [destruct s; discriminate E|reflexivity].
Qed.
Lemma trim_right_drop s c : among whitespace c = true -> trim_right whitespace (s ++ [c]) = trim_right whitespace s.
Proof. intros H. induction s as [|x s IH]; cbn [app trim_right]; [rewrite H; reflexivity|]. rewrite IH. reflexivity. Qed.
Lemma trim_left_spaces k s : trim_left whitespace (repeat " "%char k ++ s) = trim_left whitespace s.
Proof. induction k as [|k IH]; [reflexivity|]. cbn [repeat app trim_left]. exact IH. Qed.
Lemma digit_not_space c : is_digit c = true -> among whitespace c = false.
Proof.
  intros H. unfold among. apply not_true_iff_false. intros G. apply existsb_exists in G as (x & Hx & E). unfold ceq in E. apply Ascii.eqb_eq in E. subst x.
  cbn [whitespace In] in Hx. repeat destruct Hx as [<-|Hx]; try discriminate H. exact Hx.
Qed.
Lemma trim_left_digits a s : 0 <= a -> trim_left whitespace (digits a ++ s) = digits a ++ s.
Proof.
  intros Ha. pose proof (digits_all a Ha) as D. pose proof (digits_nonempty a Ha) as N. destruct (digits a) as [|c r]; [cbn in N; lia|].
  cbn [app trim_left]. cbn [forallb] in D. apply andb_prop in D as [D _]. rewrite (digit_not_space c D). reflexivity.
Qed.

(** For every nuclide with a known element the name is the mass number and the element
    symbol; the caption of the table of levels has the same two parts. *)
Theorem C83_names z a s : element_symbol z = Ok s -> 1 <= a <= 999 ->
  exists id, nuc_id z a = Ok id /\ nucid_to_symbol id = digits a ++ s /\ caption_names z a = Ok (digits a, s).
Proof.
  intros Hs Ha. destruct (C22_nucid z a s Hs Ha) as (k & m & sym & E & Em & L3 & Es & L5 & _). exists (m ++ sym). split; [exact E|].
  pose proof (symbols_ok z s Hs) as K. assert (Sa : show_int a = digits a) by (apply show_nonneg; lia). rewrite Sa in Em.
  assert (Q : exists c d, sym = [c; d] /\ trim_right whitespace (m ++ [c; lower d]) = m ++ s /\ [c] ++ trim whitespace (to_lowercase [d]) = s).
  { destruct s as [|c [|d [|x y]]]; try discriminate K; cbn [symbol_ok] in K; repeat (apply andb_prop in K as [K ?]); unfold ceq in *;
      repeat match goal with H : negb _ = true |- _ => apply negb_true_iff in H | H : Ascii.eqb _ _ = true |- _ => apply Ascii.eqb_eq in H end.
    - exists c, " "%char. cbn [to_uppercase map] in Es. rewrite K in Es. split; [exact Es|]. split; [|reflexivity].
      change (m ++ [c; lower " "%char]) with (m ++ [c] ++ [" "%char]). rewrite app_assoc, trim_right_drop by reflexivity. apply trim_right_keep. assumption.
    - exists c, (upper d). cbn [to_uppercase map] in Es. rewrite K in Es. split; [exact Es|].
      replace (lower (upper d)) with d by congruence. split.
      + change (m ++ [c; d]) with (m ++ [c] ++ [d]). rewrite app_assoc. apply trim_right_keep. assumption.
      + cbn [to_lowercase map]. replace (lower (upper d)) with d by congruence. unfold trim. cbn [trim_right].
        replace (among whitespace d) with false by congruence. cbn [trim_left]. replace (among whitespace d) with false by congruence. reflexivity. }
  destruct Q as (c & d & -> & T & Cc). split.
  - unfold nucid_to_symbol. rewrite L5. cbn [Nat.eqb]. unfold trim. rewrite lower_last_app, T, Em, <- app_assoc, trim_left_spaces.
    apply trim_left_digits. lia.
  - unfold caption_names. rewrite E. cbn [bind]. assert (P : firstn 3 (m ++ [c; d]) = m /\ skipn 3 (m ++ [c; d]) = [c; d] /\ skipn 4 (m ++ [c; d]) = [d]).
    { clear - L3. destruct m as [|x [|y [|w [|]]]]; try discriminate L3. repeat split. }
    destruct P as (P1 & P2 & P3). rewrite P1, P2, P3. change (firstn 1 [c; d]) with [c]. change (firstn 1 [d]) with [d]. rewrite Cc. f_equal. f_equal. unfold trim.
    assert (TR : trim_right whitespace m = m).
    { rewrite Em. destruct (@exists_last _ (digits a)) as (l & x & X).
      { intros G. pose proof (digits_nonempty a ltac:(lia)) as N. rewrite G in N. cbn in N. lia. }
      rewrite X, app_assoc. apply trim_right_keep. apply digit_not_space. pose proof (digits_all a ltac:(lia)) as D. rewrite X, forallb_app in D.
      apply andb_prop in D as [_ D]. cbn [forallb] in D. apply andb_prop in D as [D _]. exact D. }
    rewrite TR, Em, trim_left_spaces. rewrite <- (app_nil_r (digits a)) at 1. rewrite trim_left_digits by lia. apply app_nil_r.
Qed.
Print Assumptions C83_names.

Example C83_names_case : nuc_id 18 40 = Ok (b " 40AR") /\ nucid_to_symbol (b " 40AR") = b "40Ar" /\ nucid_to_symbol (b "  1H ") = b "1H" /\ caption_names 82 208 = Ok (b "208", b "Pb").
Proof. repeat split. Qed.

(** ** Reactions *)

(** The text up to the first character that is not in a class is determined. *)
Lemma class_split (P : ascii -> bool) (l1 l2 : bytes) c1 c2 r1 r2 : forallb P l1 = true -> forallb P l2 = true -> P c1 = false -> P c2 = false ->
  l1 ++ c1 :: r1 = l2 ++ c2 :: r2 -> l1 = l2 /\ c1 :: r1 = c2 :: r2.
Proof.
  revert l2. induction l1 as [|x l1 IH]; intros [|y l2] H1 H2 N1 N2 E; cbn [app forallb] in *.
  - split; [reflexivity|exact E].
  - injection E as -> _. rewrite N1 in H2. discriminate H2.
  - injection E as -> _. rewrite N2 in H1. discriminate H1.
  - injection E as -> E. apply andb_prop in H1 as [_ H1]. apply andb_prop in H2 as [_ H2]. destruct (IH l2 H1 H2 N1 N2 E) as [-> ->]. split; reflexivity.
Qed.

Definition no_space (c : ascii) : bool := negb (ceq c " "%char).
Definition letter (c : ascii) : bool := let z := code c in (65 <=? z) && (z <=? 90) || (97 <=? z) && (z <=? 122).

(** Every symbol that can occur, with its code. *)
Definition known : list Z := flat_map (fun p => [fst p; - fst p]) particle_symbols.
Lemma known_codes pid s : particle_symbol pid = Ok s -> In pid known.
Proof.
  unfold particle_symbol. destruct (particle_charge pid); cbn [bind]; [|discriminate]. destruct (assoc (Z.abs pid) particle_symbols) as [t|] eqn:E; [|discriminate].
  intros _. apply assoc_in in E. unfold known. apply in_flat_map. exists (Z.abs pid, t). split; [exact E|]. cbn [fst In]. lia.
Qed.
Definition same_bytes (s t : bytes) : bool := if list_eq_dec ascii_dec s t then true else false.
Definition apart (p q : Z) : bool :=
  match particle_symbol p, particle_symbol q with Ok s, Ok t => negb (same_bytes s t) || (p =? q) | _, _ => true end.
Lemma symbols_apart : forallb (fun p => forallb (apart p) known) known = true.
Proof. vm_compute. reflexivity. Qed.
Lemma symbol_inj p q s : particle_symbol p = Ok s -> particle_symbol q = Ok s -> p = q.
Proof.
  intros Hp Hq. pose proof symbols_apart as T. rewrite forallb_forall in T. specialize (T p (known_codes p s Hp)).
  rewrite forallb_forall in T. specialize (T q (known_codes q s Hq)). unfold apart in T. rewrite Hp, Hq in T.
  unfold same_bytes in T. destruct (list_eq_dec ascii_dec s s); [|congruence]. cbn [negb orb] in T. apply Z.eqb_eq. exact T.
Qed.
Lemma symbol_no_space p s : particle_symbol p = Ok s -> forallb no_space s = true.
Proof.
  intros H. assert (T : forallb (fun p => match particle_symbol p with Ok s => forallb no_space s | Er _ => true end) known = true) by (vm_compute; reflexivity).
  rewrite forallb_forall in T. specialize (T p (known_codes p s H)). rewrite H in T. exact T.
Qed.
Lemma element_letters z s : element_symbol z = Ok s -> forallb letter s = true /\ exists c r, s = c :: r /\ is_digit c = false.
Proof.
  unfold element_symbol. destruct (assoc z element_symbols) as [w|] eqn:E; [|discriminate]. intros H. injection H as <-.
  apply assoc_in in E. assert (T : forallb (fun p => forallb letter (b (snd p)) && match b (snd p) with c :: _ => negb (is_digit c) | [] => false end) element_symbols = true)
    by (vm_compute; reflexivity).
  rewrite forallb_forall in T. specialize (T _ E). cbn [snd] in T. apply andb_prop in T as [T1 T2]. split; [exact T1|].
  destruct (b w) as [|c r]; [discriminate T2|]. exists c, r. split; [reflexivity|]. destruct (is_digit c); [discriminate T2|reflexivity].
Qed.
Lemma element_inj z z' s : element_symbol z = Ok s -> element_symbol z' = Ok s -> z = z'.
Proof. intros H H'. apply C22_symbols in H, H'. congruence. Qed.

Lemma code_A_nonneg p : 0 <= p -> 0 <= code_A p.
Proof. intros H. unfold code_A. apply Z.quot_pos; [|lia]. apply Z.rem_nonneg; lia. Qed.

(** Positive level energies. *)
Definition excited (es : list spec_float) : Prop := exists e, In e es /\ dlt dbl_zero e = true.

(** The description of a nuclear reaction determines the projectile, the ejectile, the
    proton and mass numbers of both nuclides, and whether a level above the ground state
    can be reached. *)
Theorem C83_description pa pb pc pd es qa qb qc qd es' t : 0 <= pb -> 0 <= pd -> 0 <= qb -> 0 <= qd ->
  nuclear_description pa pb pc pd es = Ok t -> nuclear_description qa qb qc qd es' = Ok t ->
  pa = qa /\ code_Z pb = code_Z qb /\ code_A pb = code_A qb /\ pc = qc /\ code_Z pd = code_Z qd /\ code_A pd = code_A qd /\ (excited es <-> excited es').
Proof.
  intros Pb Pd Qb Qd H H'. unfold nuclear_description in H, H'.
  destruct (particle_symbol pa) as [sa|] eqn:S1; [|discriminate H]. destruct (element_symbol (code_Z pb)) as [ei|] eqn:S2; [|discriminate H].
  destruct (particle_symbol pc) as [sc|] eqn:S3; [|discriminate H]. destruct (element_symbol (code_Z pd)) as [ef|] eqn:S4; [|discriminate H].
  destruct (particle_symbol qa) as [sa'|] eqn:S1'; [|discriminate H']. destruct (element_symbol (code_Z qb)) as [ei'|] eqn:S2'; [|discriminate H'].
  destruct (particle_symbol qc) as [sc'|] eqn:S3'; [|discriminate H']. destruct (element_symbol (code_Z qd)) as [ef'|] eqn:S4'; [|discriminate H'].
  cbn [bind] in H, H'. assert (E : forall x y : bytes, Ok x = Ok t -> Ok y = Ok t -> x = y) by (intros x y A B; congruence).
  specialize (E _ _ H H'). clear H H'. rewrite !show_nonneg in E by (apply code_A_nonneg; assumption).
  destruct (element_letters _ _ S2) as (L2 & c2 & r2 & -> & N2). destruct (element_letters _ _ S2') as (L2' & c2' & r2' & -> & N2').
  destruct (element_letters _ _ S4) as (L4 & c4 & r4 & -> & N4). destruct (element_letters _ _ S4') as (L4' & c4' & r4' & -> & N4').
  apply (class_split no_space) in E; try reflexivity; try (eapply symbol_no_space; eassumption). destruct E as [-> E]. apply (app_inv_head (b " + ")) in E.
  cbn [app] in E. apply (class_split is_digit) in E; try assumption; try (apply digits_all, code_A_nonneg; assumption). destruct E as [A1 E].
  apply (class_split letter (c2 :: r2) (c2' :: r2')) in E; try assumption; try reflexivity. destruct E as [Z1 E]. apply (app_inv_head (b " --> ")) in E.
  apply (class_split no_space) in E; try reflexivity; try (eapply symbol_no_space; eassumption). destruct E as [-> E]. apply (app_inv_head (b " + ")) in E.
  cbn [app] in E. apply (class_split is_digit) in E; try assumption; try (apply digits_all, code_A_nonneg; assumption). destruct E as [A2 E].
  assert (X : forall es0, exists x y, (if existsb (fun e => dlt dbl_zero e) es0 then b "*" else b " (g.s.)") = x :: y /\ letter x = false).
  { intros es0. destruct (existsb _ es0); eexists; eexists; split; reflexivity. }
  assert (E' : c4 :: r4 = c4' :: r4' /\ (if existsb (fun e => dlt dbl_zero e) es then b "*" else b " (g.s.)") = (if existsb (fun e => dlt dbl_zero e) es' then b "*" else b " (g.s.)")).
  { destruct (X es) as (x & y & X1 & Nx). destruct (X es') as (x' & y' & X2 & Nx'). rewrite X1, X2 in E. rewrite X1, X2.
    apply (class_split letter (c4 :: r4) (c4' :: r4')) in E; assumption. }
  destruct E' as [Z2 G]. rewrite Z1 in S2. rewrite Z2 in S4.
  split; [exact (symbol_inj _ _ _ S1 S1')|]. split; [exact (element_inj _ _ _ S2 S2')|]. split.
  { rewrite <- (digits_val_digits (code_A pb)), <- (digits_val_digits (code_A qb)), A1 by (apply code_A_nonneg; assumption). reflexivity. }
  split; [exact (symbol_inj _ _ _ S3 S3')|]. split; [exact (element_inj _ _ _ S4 S4')|]. split.
  { rewrite <- (digits_val_digits (code_A pd)), <- (digits_val_digits (code_A qd)), A2 by (apply code_A_nonneg; assumption). reflexivity. }
  unfold excited. rewrite <- !existsb_exists. destruct (existsb _ es), (existsb _ es'); try tauto; discriminate G.
Qed.
Print Assumptions C83_description.

(** A description exists exactly if the names of all the particles do; those of the two
    kinds of reactions differ, and that of scattering on electrons determines the neutrino. *)
Theorem C83_description_electron pa t : electron_description pa = Ok t ->
  In pa [12; -12; 14; -14; 16; -16] /\ (forall qa, electron_description qa = Ok t -> qa = pa) /\
  (forall qa qb qc qd es, 0 <= qb -> nuclear_description qa qb qc qd es <> Ok t).
Proof.
  intros H. unfold electron_description in H. destruct (ejectile pa NuElectronElastic) as [pc|] eqn:J; [|discriminate H]. cbn [bind] in H.
  destruct (particle_symbol pa) as [sa|] eqn:S1; [|discriminate H]. cbn [bind] in H.
  destruct (particle_symbol ELECTRON) as [se|] eqn:S2; [|discriminate S2]. cbn [bind] in H.
  destruct (particle_symbol pc) as [sc|] eqn:S3; [|discriminate H]. cbn [bind] in H.
  assert (E : forall x y : bytes, Ok x = Ok t -> Ok y = Ok t -> x = y) by (intros x y A B; congruence).
  split; [|split].
  - clear - J. unfold ejectile in J. destruct (existsb (Z.eqb pa) (projectiles NuElectronElastic)) eqn:X; [|discriminate J].
    apply existsb_exists in X as (x & X & Y). apply Z.eqb_eq in Y. subst x. cbn in X. cbn [In]. lia.
  - intros qa H'. unfold electron_description in H'. destruct (ejectile qa NuElectronElastic) as [qc|]; [|discriminate H']. cbn [bind] in H'.
    destruct (particle_symbol qa) as [sa'|] eqn:S1'; [|discriminate H']. cbn [bind] in H'. rewrite S2 in H'. cbn [bind] in H'.
    destruct (particle_symbol qc) as [sc'|] eqn:S3'; [|discriminate H']. cbn [bind] in H'. specialize (E _ _ H H').
    apply (class_split no_space) in E; try reflexivity; try (eapply symbol_no_space; eassumption). destruct E as [-> _]. exact (symbol_inj _ _ _ S1' S1).
  - intros qa qb qc qd es Hq H'. unfold nuclear_description in H'.
    destruct (particle_symbol qa) as [sa'|] eqn:S1'; [|discriminate H']. destruct (element_symbol (code_Z qb)) as [ei|] eqn:S2'; [|discriminate H'].
    destruct (particle_symbol qc) as [sc'|] eqn:S3'; [|discriminate H']. destruct (element_symbol (code_Z qd)) as [ef|]; [|discriminate H'].
    cbn [bind] in H'. specialize (E _ _ H H'). apply (class_split no_space) in E; try reflexivity; try (eapply symbol_no_space; eassumption). destruct E as [_ E].
    apply (app_inv_head (b " + ")) in E. rewrite show_nonneg in E by (apply code_A_nonneg; exact Hq).
    pose proof (digits_all _ (code_A_nonneg _ Hq)) as D. pose proof (digits_nonempty _ (code_A_nonneg _ Hq)) as N.
    destruct (digits (code_A qb)) as [|x y]; [cbn in N; lia|]. vm_compute in S2. injection S2 as <-. cbn [app] in E. injection E as <- _.
    cbn [forallb] in D. discriminate D.
Qed.
Print Assumptions C83_description_electron.

Example C83_description_case : (exists t, nuclear_description 12 1000180400 11 1000190400 [dbl_zero; rnd64 false 3 2] = Ok t /\
    t = utf8 [206; 189] ++ b "e + 40Ar --> e" ++ utf8 [226; 129; 187] ++ b " + 40K*") /\
  (exists t, nuclear_description (-14) 1000180400 (-14) 1000180400 [dbl_zero] = Ok t /\
    t = b "anti-" ++ utf8 [206; 189; 206; 188] ++ b " + 40Ar --> anti-" ++ utf8 [206; 189; 206; 188] ++ b " + 40Ar (g.s.)") /\
  (exists t, electron_description 16 = Ok t).
Proof. repeat split; eexists; vm_compute; try split; reflexivity. Qed.

(** ** Events *)

Definition lines (t : bytes) : nat := count_occ ascii_dec t nl.
Definition smooth (t : bytes) : Prop := lines t = 0%nat.
Lemma lines_app s t : lines (s ++ t) = (lines s + lines t)%nat.
Proof. apply count_occ_app. Qed.
Lemma smooth_digits t : forallb is_digit t = true -> smooth t.
Proof.
  intros H. apply count_occ_not_In. intros G. rewrite forallb_forall in H. specialize (H _ G). discriminate H.
Qed.
Lemma smooth_app s t : smooth s -> smooth t -> smooth (s ++ t).
Proof. unfold smooth. rewrite lines_app. lia. Qed.
Lemma smooth_int z : smooth (show_int z).
Proof.
  unfold show_int. destruct (Z.ltb_spec z 0).
  - apply (smooth_app ["-"%char]); [reflexivity|apply smooth_digits, digits_all; lia].
  - apply smooth_digits, digits_all; lia.
Qed.
Lemma smooth_sub P (t : bytes) : smooth t -> (forall c, In c P -> In c t) -> smooth P.
Proof. intros H S. apply count_occ_not_In. intros G. apply (count_occ_not_In ascii_dec t nl) in H. apply H, S, G. Qed.
Lemma strip0_in c t : In c (strip0 t) -> In c t.
Proof.
  induction t as [|x t IH]; [intros []|]. cbn [strip0]. destruct (strip0 t) as [|y r].
  - destruct (ceq x "0"%char); [intros []|]. intros [<-|[]]. left. reflexivity.
  - intros [<-|G]; [left; reflexivity|right; apply IH; exact G].
Qed.
Lemma smooth_frac t : smooth t -> smooth (frac_str (strip0 t)).
Proof.
  intros H. assert (S : smooth (strip0 t)) by (apply (smooth_sub _ t H); intros c; apply strip0_in).
  unfold frac_str. destruct (strip0 t); [exact S|]. apply (smooth_app ["."%char]); [reflexivity|exact S].
Qed.
Lemma firstn_in {A} n (l : list A) x : In x (firstn n l) -> In x l.
Proof. intros H. rewrite <- (firstn_skipn n l). apply in_app_iff. left. exact H. Qed.
Lemma skipn_in {A} n (l : list A) x : In x (skipn n l) -> In x l.
Proof. intros H. rewrite <- (firstn_skipn n l). apply in_app_iff. right. exact H. Qed.
Lemma smooth_g6 x : smooth (show_g6 x).
Proof.
  assert (SG : forall s, smooth (sign_str s)) by (intros [|]; reflexivity).
  destruct x as [s|s| |s m e]; cbn [show_g6]; try (apply smooth_app; [apply SG|reflexivity]); [reflexivity|].
  destruct (to_dec 6 (dnum m e) (dden e)) as [D X] eqn:E. apply smooth_app; [apply SG|].
  assert (HD : smooth (digits D)).
  { apply smooth_digits, digits_all. pose proof (to_dec_spec 6 (dnum m e) (dden e) ltac:(lia) (dnum_pos m e) (dden_pos e)) as T. rewrite E in T. lia. }
  destruct ((X <? -4) || (6 <=? X)); [|destruct (X <? 0)].
  - apply smooth_app; [apply (smooth_sub _ _ HD); intros c; apply firstn_in|]. apply smooth_app; [apply smooth_frac, (smooth_sub _ _ HD); intros c; apply skipn_in|].
    apply (smooth_app ["e"%char]); [reflexivity|]. unfold show_exp. apply (smooth_app [if X <? 0 then "-"%char else "+"%char]); [destruct (X <? 0); reflexivity|].
    destruct (Z.abs X <? 10); [apply (smooth_app ["0"%char]); [reflexivity|]|]; apply smooth_digits, digits_all; lia.
  - apply (smooth_app ["0"%char]); [reflexivity|]. apply smooth_frac, smooth_app; [|exact HD]. apply count_occ_not_In. intros G. apply repeat_spec in G. discriminate G.
  - apply smooth_app; [apply (smooth_sub _ _ HD); intros c; apply firstn_in|]. apply smooth_frac, (smooth_sub _ _ HD). intros c. apply skipn_in.
Qed.

(** Every particle of an event takes three lines, after a blank line, the header, and the line
    about the residue; initial and final particles each have a heading. *)
Theorem C83_event_lines num ev : lines (print_human_readable num ev) = (5 + 3 * (List.length (e_init ev) + List.length (e_fin ev)))%nat.
Proof.
  assert (P : forall p, lines (particle_info p) = 3%nat).
  { intros p. unfold particle_info. rewrite !lines_app. rewrite !smooth_g6, !smooth_int. reflexivity. }
  assert (F : forall l, lines (flat_map particle_info l) = (3 * List.length l)%nat).
  { induction l as [|p l IH]; [reflexivity|]. cbn [flat_map List.length]. rewrite lines_app, P, IH. lia. }
  assert (S : smooth (event_spin ev)).
  { unfold event_spin. apply smooth_app; [|destruct (e_par ev); reflexivity]. destruct (Z.rem _ 2 =? 1); [apply smooth_app; [apply smooth_int|reflexivity]|apply smooth_int]. }
  unfold print_human_readable. rewrite !lines_app, !F, S, smooth_g6, !smooth_int.
  assert (N : lines (if 0 <=? num then show_int num ++ b " " else []) = 0%nat) by (destruct (0 <=? num); [rewrite lines_app, smooth_int|]; reflexivity).
  rewrite N. change (lines [nl]) with 1%nat. repeat match goal with |- context [lines (b ?s)] => change (lines (b s)) with 0%nat end. lia.
Qed.
Print Assumptions C83_event_lines.

