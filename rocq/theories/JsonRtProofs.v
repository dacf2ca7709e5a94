(** The parser reads every text of the grammar; the printer writes texts of the
    grammar; hence the round trip. *)
From Coq Require Import List Ascii String ZArith Bool Lia.
From Coq Require Import Floats.SpecFloat.
From Verif Require Import Base Dbl DigitsProofs Json JsonSpec JsonProofs JsonNumProofs.
Import ListNotations.
Local Open Scope Z_scope.

(** ** Reading *)

Scheme denotes_mut := Induction for denotes Sort Prop
with arr_text_mut := Induction for arr_text Sort Prop
with obj_text_mut := Induction for obj_text Sort Prop.

Lemma is_digit_props : forall c, is_digit c = true \/ c = "-"%char ->
  is_space c = false /\ c <> "/"%char /\ c <> "]"%char /\ c <> "["%char /\ c <> "{"%char /\
  c <> dquote /\ c <> "t"%char /\ c <> "f"%char /\ c <> "n"%char /\
  is_digit c || ceq c "-"%char = true.
Proof.
  intros c H.
  assert (Hs : is_space c = false).
  { destruct H as [H|H]; [unfold is_digit, is_space in *; lia|subst c; reflexivity]. }
  split; [exact Hs|].
  destruct H as [H|H].
  - rewrite H. repeat split; try (intros ->; discriminate H).
  - subst c. repeat split; try discriminate.
Qed.

Lemma num_text_head : forall v t, num_text v t ->
  exists c r, t = c :: r /\ (is_digit c = true \/ c = "-"%char).
Proof.
  assert (G : forall neg ds u, ds <> [] -> all_digits ds -> exists c r,
     sign_str neg ++ ds ++ u = c :: r /\ (is_digit c = true \/ c = "-"%char)).
  { intros neg ds u Hne Hd. destruct neg; cbn.
    - exists "-"%char, (ds ++ u). auto.
    - destruct ds as [|c ds]; [congruence|]. exists c, (ds ++ u). split; [reflexivity|].
      left. apply Hd. left. reflexivity. }
  intros v t H. destruct H; try (apply G; assumption).
  rewrite <- (app_nil_r (sign_str neg ++ ds)), <- app_assoc. apply G; assumption.
Qed.

Lemma denotes_head : forall v t, denotes v t ->
  exists c r, t = c :: r /\ is_space c = false /\ c <> "/"%char /\ c <> "]"%char.
Proof.
  intros v t H. destruct H; try (eexists; eexists; split; [reflexivity|];
    split; [reflexivity|]; split; discriminate).
  destruct (num_text_head _ _ H) as (c & r & -> & Hc).
  destruct (is_digit_props c Hc) as (H1 & H2 & H3 & _).
  exists c, r. auto.
Qed.

Lemma spaced_delim : forall w c s, spaced w -> is_delim c = true ->
  delim_next (w ++ c :: s) = true.
Proof.
  intros [|d w] c s Hw Hc; cbn; [exact Hc|]. unfold is_delim. cbn in Hw. rewrite Hw. reflexivity.
Qed.

Lemma num_text_number : forall v t, num_text v t -> is_number v = true.
Proof. intros v t H. destruct H; reflexivity. Qed.

Definition add_member (acc : list (bytes * json)) (kv : bytes * json) :=
  obj_set (escape (fst kv)) (snd kv) acc.

Lemma key_parse : forall k t w s, key_text k t w -> exists c r,
  t ++ w ++ ":"%char :: s = c :: r /\ is_space c = false /\ c <> "/"%char /\
  ceq c "}"%char = false /\
  exists s2, (if ceq c dquote then parse_string r [] else Ok (span_key (c :: r))) = Ok (k, s2) /\
  next_char s2 = Ok (Some ":"%char, s).
Proof.
  intros k t w s H. destruct H.
  - exists dquote, ((t ++ [dquote]) ++ w ++ ":"%char :: s).
    split; [reflexivity|]. split; [reflexivity|]. split; [discriminate|].
    split; [reflexivity|]. rewrite ceq_refl.
    exists (w ++ ":"%char :: s). split.
    + rewrite <- app_assoc. cbn [app].
      rewrite (parse_string_text _ _ H). reflexivity.
    + rewrite next_char_ws by assumption. apply next_char_plain; [reflexivity|discriminate].
  - exists c, (k ++ w ++ ":"%char :: s). split; [reflexivity|].
    destruct (H c (or_introl eq_refl)) as [Hc1 Hc2].
    split; [exact Hc2|]. split; [assumption|]. split; [apply ceq_neq; assumption|].
    rewrite (ceq_neq c dquote) by assumption.
    exists (w ++ ":"%char :: s). split.
    + change (c :: k ++ w ++ ":"%char :: s) with ((c :: k) ++ w ++ ":"%char :: s).
      rewrite span_key_app; [reflexivity|exact H|].
      destruct w as [|d w]; cbn; [left; reflexivity|right; assumption].
    + rewrite next_char_ws by assumption. apply next_char_plain; [reflexivity|discriminate].
Qed.

Lemma denotes_parse : forall v t, denotes v t ->
  forall rest, (is_number v = true -> delim_next rest = true) ->
  exists f, parse_next f (t ++ rest) = Ok (v, rest).
Proof.
  apply (denotes_mut
    (fun v t _ => forall rest, (is_number v = true -> delim_next rest = true) ->
       exists f, parse_next f (t ++ rest) = Ok (v, rest))
    (fun l t _ => forall acc rest,
       exists f, parse_arr f acc (t ++ rest) = Ok (JArr (rev acc ++ l), rest))
    (fun ms t _ => forall acc rest,
       exists f, parse_obj f acc (t ++ rest) = Ok (JObj (fold_left add_member ms acc), rest))).
  - intros rest _. exists 1%nat. reflexivity.
  - intros rest _. exists 1%nat. reflexivity.
  - intros rest _. exists 1%nat. reflexivity.
  - intros v t H rest Hr. exists 1%nat.
    specialize (Hr (num_text_number _ _ H)).
    pose proof (parse_number_text v t rest H Hr) as HP.
    destruct (num_text_head _ _ H) as (c & r & -> & Hc). cbn [app] in *.
    destruct (is_digit_props c Hc) as (H1 & H2 & H3 & H4 & H5 & H6 & H7 & H8 & H9 & H10).
    cbn [parse_next]. rewrite next_char_plain by assumption. cbn [bind].
    rewrite !ceq_neq by assumption. rewrite H10. exact HP.
  - intros v t H rest _. exists 1%nat. cbn [app parse_next].
    rewrite next_char_plain by (reflexivity || discriminate). cbn [bind].
    change (ceq dquote "["%char) with false. change (ceq dquote "{"%char) with false.
    rewrite ceq_refl, <- app_assoc. cbn [app]. rewrite (parse_string_text _ _ H). reflexivity.
  - intros l t _ IH rest _. destruct (IH [] rest) as (f & Hf). exists (S f).
    cbn [app parse_next]. rewrite next_char_plain by (reflexivity || discriminate).
    exact Hf.
  - intros ms t _ IH rest _. destruct (IH [] rest) as (f & Hf). exists (S f).
    cbn [app parse_next]. rewrite next_char_plain by (reflexivity || discriminate).
    exact Hf.
  - intros w Hw acc rest. exists 1%nat. cbn [parse_arr]. rewrite <- app_assoc. cbn [app].
    rewrite consume_ws_plain by (assumption || reflexivity || discriminate). cbn [bind].
    rewrite ceq_refl, app_nil_r. reflexivity.
  - intros w v t w' Hw Hd IH [Hw' Hs] acc rest.
    destruct (IH (w' ++ "]"%char :: rest)) as (f & Hf).
    { intros Hn. apply spaced_delim; [apply Hs; exact Hn|reflexivity]. }
    exists (S f). cbn [parse_arr].
    replace ((w ++ t ++ w' ++ ["]"%char]) ++ rest) with (w ++ t ++ w' ++ "]"%char :: rest)
      by (rewrite <- !app_assoc; reflexivity).
    destruct (denotes_head _ _ Hd) as (c & r & -> & H1 & H2 & H3). cbn [app] in *.
    rewrite consume_ws_plain by assumption. cbn [bind]. rewrite (ceq_neq _ _ H3), Hf. cbn [bind].
    rewrite next_char_ws by exact Hw'. rewrite next_char_plain by (reflexivity || discriminate).
    cbn [bind]. change (ceq "]"%char ","%char) with false. rewrite ceq_refl. cbn [rev].
    reflexivity.
  - intros w v t w' l s Hw Hd IH [Hw' Hs] Ha IHa acc rest.
    destruct (IH (w' ++ ","%char :: s ++ rest)) as (f & Hf).
    { intros Hn. apply spaced_delim; [apply Hs; exact Hn|reflexivity]. }
    destruct (IHa (v :: acc) rest) as (g & Hg).
    exists (S (Nat.max f g)). cbn [parse_arr].
    replace ((w ++ t ++ w' ++ ","%char :: s) ++ rest) with (w ++ t ++ w' ++ ","%char :: s ++ rest)
      by (rewrite <- !app_assoc; reflexivity).
    apply (parse_next_mono _ (Nat.max f g)) in Hf; [|discriminate|lia].
    apply (parse_arr_mono _ (Nat.max f g)) in Hg; [|discriminate|lia].
    destruct (denotes_head _ _ Hd) as (c & r & -> & H1 & H2 & H3). cbn [app] in *.
    rewrite consume_ws_plain by assumption. cbn [bind]. rewrite (ceq_neq _ _ H3), Hf. cbn [bind].
    rewrite next_char_ws by exact Hw'. rewrite next_char_plain by (reflexivity || discriminate).
    cbn [bind]. rewrite ceq_refl, Hg. cbn [rev]. rewrite <- app_assoc. reflexivity.
  - intros w Hw acc rest. exists 1%nat. cbn [parse_obj]. rewrite <- app_assoc. cbn [app].
    rewrite consume_ws_plain by (assumption || reflexivity || discriminate). cbn [bind].
    rewrite ceq_refl. reflexivity.
  - intros w k kt w1 w2 v t w' Hw Hk Hw2 Hd IH [Hw' Hs] acc rest.
    destruct (IH (w' ++ "}"%char :: rest)) as (f & Hf).
    { intros Hn. apply spaced_delim; [apply Hs; exact Hn|reflexivity]. }
    exists (S f). cbn [parse_obj].
    replace ((w ++ kt ++ w1 ++ ":"%char :: w2 ++ t ++ w' ++ ["}"%char]) ++ rest)
      with (w ++ (kt ++ w1 ++ ":"%char :: (w2 ++ t ++ w' ++ "}"%char :: rest)))
      by (repeat (rewrite <- !app_assoc; cbn [app]); reflexivity).
    destruct (key_parse k kt w1 (w2 ++ t ++ w' ++ "}"%char :: rest) Hk)
      as (c & r & -> & Hc1 & Hc2 & Hc3 & s2 & Ek & En).
    rewrite consume_ws_plain by assumption. cbn [bind]. rewrite Hc3, Ek. cbn [bind].
    rewrite En. cbn [bind]. rewrite ceq_refl.
    destruct (denotes_head _ _ Hd) as (c' & r' & -> & H1 & H2 & H3). cbn [app] in *.
    rewrite consume_ws_plain by assumption. cbn [bind]. rewrite Hf. cbn [bind].
    rewrite next_char_ws by exact Hw'. rewrite next_char_plain by (reflexivity || discriminate).
    cbn [bind]. change (ceq "}"%char ","%char) with false. rewrite ceq_refl. reflexivity.
  - intros w k kt w1 w2 v t w' ms s Hw Hk Hw2 Hd IH [Hw' Hs] Ho IHo acc rest.
    destruct (IH (w' ++ ","%char :: s ++ rest)) as (f & Hf).
    { intros Hn. apply spaced_delim; [apply Hs; exact Hn|reflexivity]. }
    destruct (IHo (add_member acc (k, v)) rest) as (g & Hg).
    exists (S (Nat.max f g)). cbn [parse_obj].
    apply (parse_next_mono _ (Nat.max f g)) in Hf; [|discriminate|lia].
    apply (parse_obj_mono _ (Nat.max f g)) in Hg; [|discriminate|lia].
    replace ((w ++ kt ++ w1 ++ ":"%char :: w2 ++ t ++ w' ++ ","%char :: s) ++ rest)
      with (w ++ (kt ++ w1 ++ ":"%char :: (w2 ++ t ++ w' ++ ","%char :: s ++ rest)))
      by (repeat (rewrite <- !app_assoc; cbn [app]); reflexivity).
    destruct (key_parse k kt w1 (w2 ++ t ++ w' ++ ","%char :: s ++ rest) Hk)
      as (c & r & -> & Hc1 & Hc2 & Hc3 & s2 & Ek & En).
    rewrite consume_ws_plain by assumption. cbn [bind]. rewrite Hc3, Ek. cbn [bind].
    rewrite En. cbn [bind]. rewrite ceq_refl.
    destruct (denotes_head _ _ Hd) as (c' & r' & -> & H1 & H2 & H3). cbn [app] in *.
    rewrite consume_ws_plain by assumption. cbn [bind]. rewrite Hf. cbn [bind].
    rewrite next_char_ws by exact Hw'. rewrite next_char_plain by (reflexivity || discriminate).
    cbn [bind]. rewrite ceq_refl. exact Hg.
Qed.

(** Every document of the grammar is loaded as the value it denotes, whatever
    follows it. *)
Lemma load_rest_document : forall v w t rest, ws w -> denotes v ("{"%char :: t) ->
  load_rest (w ++ "{"%char :: t ++ rest) = Ok (v, rest).
Proof.
  intros v w t rest Hw Hd. unfold load_rest.
  rewrite next_char_ws by exact Hw. rewrite next_char_plain by (reflexivity || discriminate).
  cbn [bind]. rewrite ceq_refl.
  assert (Hn : is_number v = true -> delim_next rest = true).
  { intros Hn. inversion Hd; subst; try discriminate.
    destruct (num_text_head _ _ H) as (c & r & E & Hc). injection E as <- _.
    destruct Hc as [Hc|Hc]; discriminate. }
  destruct (denotes_parse _ _ Hd rest Hn) as (f & Hf). cbn [app] in Hf.
  rewrite <- Hf. apply parse_next_agree; [|rewrite Hf; discriminate].
  apply (proj1 (parse_nofuel _)). rewrite app_length. cbn [List.length]. lia.
Qed.

Lemma load_document : forall v s, document v s -> load s = Ok v.
Proof.
  intros v s (w & t & rest & Hw & Hd & ->). unfold load.
  rewrite (load_rest_document v w t rest Hw Hd). reflexivity.
Qed.

(** ** Printing *)

(** Induction over JSON values. *)
Lemma json_ind2 : forall P : json -> Prop,
  P JNull -> (forall v, P (JBool v)) -> (forall z, P (JInt z)) -> (forall x, P (JFlt x)) ->
  (forall s, P (JStr s)) -> (forall l, Forall P l -> P (JArr l)) ->
  (forall l, Forall (fun p => P (snd p)) l -> P (JObj l)) -> forall j, P j.
Proof.
  intros P H1 H2 H3 H4 H5 H6 H7. fix IH 1. intros [ | v | z | x | s | l | l].
  - exact H1.
  - apply H2.
  - apply H3.
  - apply H4.
  - apply H5.
  - apply H6. induction l as [|v l IHl]; [constructor|]. constructor; [apply IH|exact IHl].
  - apply H7. induction l as [|[k v] l IHl]; [constructor|]. constructor; [apply IH|exact IHl].
Qed.

Lemma escape_text : forall s, str_text s (escape s).
Proof.
  induction s as [|c s IH]; [constructor|]. cbn [escape flat_map].
  change (flat_map escape1 s) with (escape s). unfold escape1.
  destruct (code c =? 34) eqn:E1.
  { apply Z.eqb_eq in E1. assert (c = dquote) by (apply code_inj; exact E1). subst c.
    cbn [app]. apply tx_quote. exact IH. }
  destruct (code c =? 92) eqn:E2.
  { apply Z.eqb_eq in E2. assert (c = bslash) by (apply code_inj; exact E2). subst c.
    cbn [app]. apply tx_bslash. exact IH. }
  destruct (code c =? 8) eqn:E3.
  { apply Z.eqb_eq in E3. assert (c = chr 8) by (apply code_inj; exact E3). subst c.
    cbn [app]. apply tx_b. exact IH. }
  destruct (code c =? 12) eqn:E4.
  { apply Z.eqb_eq in E4. assert (c = chr 12) by (apply code_inj; exact E4). subst c.
    cbn [app]. apply tx_f. exact IH. }
  destruct (code c =? 10) eqn:E5.
  { apply Z.eqb_eq in E5. assert (c = chr 10) by (apply code_inj; exact E5). subst c.
    cbn [app]. apply tx_n. exact IH. }
  destruct (code c =? 13) eqn:E6.
  { apply Z.eqb_eq in E6. assert (c = chr 13) by (apply code_inj; exact E6). subst c.
    cbn [app]. apply tx_r. exact IH. }
  destruct (code c =? 9) eqn:E7.
  { apply Z.eqb_eq in E7. assert (c = chr 9) by (apply code_inj; exact E7). subst c.
    cbn [app]. apply tx_t. exact IH. }
  cbn [app]. apply tx_plain; [| |exact IH]; intros ->; discriminate.
Qed.

Lemma plain_escape : forall k, plain_key k -> escape k = k.
Proof.
  induction k as [|c k IH]; intros H; [reflexivity|]. cbn [escape flat_map].
  change (flat_map escape1 k) with (escape k). rewrite IH.
  - unfold escape1. pose proof (H c (or_introl eq_refl)) as Hc. unfold needs_escape in Hc. cbn in Hc.
    destruct (code c =? 34) eqn:E1; [apply Z.eqb_eq in E1; exfalso; intuition lia|].
    destruct (code c =? 92) eqn:E2; [apply Z.eqb_eq in E2; exfalso; intuition lia|].
    destruct (code c =? 8) eqn:E3; [apply Z.eqb_eq in E3; exfalso; intuition lia|].
    destruct (code c =? 12) eqn:E4; [apply Z.eqb_eq in E4; exfalso; intuition lia|].
    destruct (code c =? 10) eqn:E5; [apply Z.eqb_eq in E5; exfalso; intuition lia|].
    destruct (code c =? 13) eqn:E6; [apply Z.eqb_eq in E6; exfalso; intuition lia|].
    destruct (code c =? 9) eqn:E7; [apply Z.eqb_eq in E7; exfalso; intuition lia|]. reflexivity.
  - intros d Hd. apply H. right. exact Hd.
Qed.

Lemma ws_app : forall w w', ws w -> ws w' -> ws (w ++ w').
Proof.
  induction 1; intros Hw'; cbn [app].
  - exact Hw'.
  - apply ws_space; auto.
  - rewrite <- app_assoc. cbn [app]. apply ws_line; auto.
  - rewrite <- app_assoc. cbn [app]. apply ws_block; auto.
Qed.

Lemma ws_spaces : forall n, ws (spaces n).
Proof. induction n; cbn; [constructor|]. apply ws_space; [reflexivity|assumption]. Qed.

Lemma ws_pnl : forall p, ws (pnl p).
Proof. destruct p; cbn; [apply ws_space; [reflexivity|constructor]|constructor]. Qed.

Lemma spaced_sp : forall n, spaced (spaces n).
Proof. destruct n; cbn; [exact I|reflexivity]. Qed.

Lemma spaced_app : forall w w', spaced w -> spaced w' -> spaced (w ++ w').
Proof. intros [|c w] w' H H'; cbn; [exact H'|exact H]. Qed.

Lemma spaced_pnl : forall p, spaced (pnl p).
Proof. destruct p; cbn; [reflexivity|exact I]. Qed.

(** The separators the printer puts between tokens. *)
Lemma ws_after_blank : forall v w, ws w -> spaced w -> ws_after v w.
Proof. intros v w H1 H2. split; auto. Qed.

(** The loops inside [print], named. *)
Fixpoint members (step : nat) (pretty : bool) (ind : nat) (skip : bool)
    (l : list (bytes * json)) : bytes :=
  match l with
  | [] => []
  | (k, v) :: r =>
      (if skip then [] else ","%char :: pnl pretty)
      ++ spaces ind ++ quoted k
      ++ (if pretty then b " : " else b ":")
      ++ print step pretty ind v
      ++ members step pretty ind false r
  end.

Fixpoint elements (step : nat) (pretty : bool) (ind : nat) (skip : bool)
    (l : list json) : bytes :=
  match l with
  | [] => []
  | v :: r =>
      (if skip then [] else ","%char :: pnl pretty)
      ++ spaces ind
      ++ print step pretty ind v
      ++ elements step pretty ind false r
  end.

Definition deeper (step : nat) (pretty : bool) (ind : nat) : nat :=
  if pretty then (ind + step)%nat else ind.

Lemma print_obj : forall step pretty ind l,
  print step pretty ind (JObj l) =
  "{"%char :: pnl pretty ++ members step pretty (deeper step pretty ind) true l
  ++ pnl pretty ++ spaces ind ++ ["}"%char].
Proof.
  intros. cbn [print]. unfold deeper. f_equal. f_equal. f_equal.
  match goal with |- ?F true l = ?G true l =>
    enough (E : forall l skip, F skip l = G skip l) by apply E end.
  clear l. induction l as [|[k v] l IH]; intros skip; [reflexivity|].
  cbn [members]. rewrite IH. reflexivity.
Qed.

Lemma print_arr : forall step pretty ind l,
  print step pretty ind (JArr l) =
  "["%char :: pnl pretty ++ elements step pretty (deeper step pretty ind) true l
  ++ pnl pretty ++ spaces ind ++ ["]"%char].
Proof.
  intros. cbn [print]. unfold deeper. f_equal. f_equal. f_equal.
  match goal with |- ?F true l = ?G true l =>
    enough (E : forall l skip, F skip l = G skip l) by apply E end.
  clear l. induction l as [|v l IH]; intros skip; [reflexivity|].
  cbn [elements]. rewrite IH. reflexivity.
Qed.

(** Texts of a sequence of elements as [print] writes them. *)
Lemma elements_text : forall step pretty ind l l',
  Forall2 (fun v v' => denotes v' (print step pretty ind v)) l l' ->
  forall w tail, ws w -> ws tail -> spaced tail ->
  arr_text l' (w ++ elements step pretty ind true l ++ tail ++ ["]"%char]).
Proof.
  intros step pretty ind l l' H. induction H as [|v v' l l' Hv Hl IH]; intros w tail Hw Ht Hs.
  - cbn [elements app]. rewrite app_assoc. apply ar_end. apply ws_app; assumption.
  - cbn [elements app]. destruct l as [|v2 l2].
    + inversion Hl; subst. cbn [elements]. rewrite app_nil_r.
      replace (w ++ (spaces ind ++ print step pretty ind v) ++ tail ++ ["]"%char])
        with ((w ++ spaces ind) ++ print step pretty ind v ++ tail ++ ["]"%char])
        by (rewrite <- !app_assoc; reflexivity).
      apply ar_last; [apply ws_app; [exact Hw|apply ws_spaces]|exact Hv|].
      apply ws_after_blank; assumption.
    + replace (w ++ (spaces ind ++ print step pretty ind v ++ elements step pretty ind false (v2 :: l2))
                 ++ tail ++ ["]"%char])
        with ((w ++ spaces ind) ++ print step pretty ind v ++ [] ++ ","%char ::
                (pnl pretty ++ elements step pretty ind true (v2 :: l2) ++ tail ++ ["]"%char])).
      2: { cbn [elements]. repeat (rewrite <- !app_assoc; cbn [app]). reflexivity. }
      apply ar_more; [apply ws_app; [exact Hw|apply ws_spaces]|exact Hv| |].
      * apply ws_after_blank; [constructor|exact I].
      * apply IH; [apply ws_pnl|exact Ht|exact Hs].
Qed.

Lemma colon_split : forall pretty : bool, exists w1 w2, ws w1 /\ spaced w1 /\ ws w2 /\
  (if pretty then b " : " else b ":") = w1 ++ ":"%char :: w2.
Proof.
  intros [|].
  - exists [" "%char], [" "%char]. split; [|split; [reflexivity|split; [|reflexivity]]];
      apply ws_space; try reflexivity; constructor.
  - exists [], []. repeat split; constructor.
Qed.

Lemma members_text : forall step pretty ind l l',
  Forall2 (fun p p' => fst p = fst p' /\ denotes (snd p') (print step pretty ind (snd p))) l l' ->
  forall w tail, ws w -> ws tail -> spaced tail ->
  obj_text l' (w ++ members step pretty ind true l ++ tail ++ ["}"%char]).
Proof.
  intros step pretty ind l l' H.
  destruct (colon_split pretty) as (w1 & w2 & Hw1 & Hs1 & Hw2 & Ecol).
  induction H as [|[k v] [k' v'] l l' [Hk Hv] Hl IH]; intros w tail Hw Ht Hs.
  - cbn [members app]. rewrite app_assoc. apply ob_end. apply ws_app; assumption.
  - cbn [fst snd] in Hk, Hv. subst k'. cbn [members app]. rewrite Ecol.
    assert (Hkt : key_text k (quoted k) w1).
    { unfold quoted. apply kt_quoted; [apply escape_text|exact Hw1]. }
    destruct l as [|p2 l2].
    + inversion Hl; subst. cbn [members]. rewrite app_nil_r.
      replace (w ++ (spaces ind ++ quoted k ++ (w1 ++ ":"%char :: w2) ++ print step pretty ind v)
                 ++ tail ++ ["}"%char])
        with ((w ++ spaces ind) ++ quoted k ++ w1 ++ ":"%char :: w2 ++ print step pretty ind v
                 ++ tail ++ ["}"%char])
        by (repeat (rewrite <- !app_assoc; cbn [app]); reflexivity).
      apply ob_last; [apply ws_app; [exact Hw|apply ws_spaces]|exact Hkt|exact Hw2|exact Hv|].
      apply ws_after_blank; assumption.
    + replace (w ++ (spaces ind ++ quoted k ++ (w1 ++ ":"%char :: w2) ++ print step pretty ind v
                 ++ members step pretty ind false (p2 :: l2)) ++ tail ++ ["}"%char])
        with ((w ++ spaces ind) ++ quoted k ++ w1 ++ ":"%char :: w2 ++ print step pretty ind v
                 ++ [] ++ ","%char ::
                (pnl pretty ++ members step pretty ind true (p2 :: l2) ++ tail ++ ["}"%char])).
      2: { destruct p2 as [k2 v2]. cbn [members].
           repeat (rewrite <- !app_assoc; cbn [app]). reflexivity. }
      apply ob_more; [apply ws_app; [exact Hw|apply ws_spaces]|exact Hkt|exact Hw2|exact Hv| |].
      * apply ws_after_blank; [constructor|exact I].
      * apply IH; [apply ws_pnl|exact Ht|exact Hs].
Qed.

(** ** Objects in key order *)

Lemma bytes_eqb_eq : forall x y, bytes_eqb x y = true <-> x = y.
Proof.
  induction x as [|c x IH]; intros [|d y]; cbn; try (split; congruence).
  rewrite andb_true_iff, IH. split.
  - intros [H1 H2]. apply ceq_true in H1. congruence.
  - intros H. injection H as -> ->. split; [apply ceq_refl|reflexivity].
Qed.

Lemma bytes_eqb_refl : forall x, bytes_eqb x x = true.
Proof. intros. apply bytes_eqb_eq. reflexivity. Qed.

Lemma bytes_ltb_irrefl : forall x, bytes_ltb x x = false.
Proof. induction x as [|c x IH]; cbn; [reflexivity|]. rewrite Z.ltb_irrefl. exact IH. Qed.

Lemma bytes_ltb_asym : forall x y, bytes_ltb x y = true -> bytes_ltb y x = false.
Proof.
  induction x as [|c x IH]; intros [|d y] H; cbn in *; try congruence.
  destruct (code c <? code d) eqn:E.
  - replace (code d <? code c) with false by lia. reflexivity.
  - destruct (code d <? code c) eqn:E2; [discriminate|]. apply IH. exact H.
Qed.

Lemma bytes_ltb_trans : forall x y z, bytes_ltb x y = true -> bytes_ltb y z = true ->
  bytes_ltb x z = true.
Proof.
  induction x as [|c x IH]; intros [|d y] [|e z] H1 H2; cbn in *; try congruence.
  destruct (code c <? code d) eqn:E1.
  - destruct (code d <? code e) eqn:E2; [replace (code c <? code e) with true by lia; reflexivity|].
    destruct (code e <? code d) eqn:E3; [discriminate|].
    replace (code c <? code e) with true by lia. reflexivity.
  - destruct (code d <? code c) eqn:E1'; [discriminate|].
    destruct (code d <? code e) eqn:E2; [replace (code c <? code e) with true by lia; reflexivity|].
    destruct (code e <? code d) eqn:E3; [discriminate|].
    replace (code c <? code e) with false by lia. replace (code e <? code c) with false by lia.
    apply (IH y); assumption.
Qed.

Lemma bytes_ltb_total : forall x y, bytes_ltb x y = false -> bytes_ltb y x = false -> x = y.
Proof.
  induction x as [|c x IH]; intros [|d y] H1 H2; cbn in *; try congruence.
  destruct (code c <? code d) eqn:E1; [discriminate|].
  destruct (code d <? code c) eqn:E2; [discriminate|].
  rewrite (IH y); [|assumption|assumption].
  f_equal. apply code_inj. lia.
Qed.

Lemma obj_set_last : forall k v l, (forall k', In k' (map fst l) -> bytes_ltb k' k = true) ->
  obj_set k v l = l ++ [(k, v)].
Proof.
  induction l as [|[k0 v0] l IH]; intros H; [reflexivity|]. cbn.
  pose proof (H k0 (or_introl eq_refl)) as H0.
  destruct (bytes_eqb k k0) eqn:E.
  { apply bytes_eqb_eq in E. subst k0. rewrite bytes_ltb_irrefl in H0. discriminate. }
  rewrite (bytes_ltb_asym _ _ H0). rewrite IH; [reflexivity|].
  intros k' Hk'. apply H. right. exact Hk'.
Qed.

Lemma fold_members_sorted : forall ms acc,
  sorted_keys (map fst (acc ++ ms)) -> Forall (fun p => plain_key (fst p)) ms ->
  fold_left add_member ms acc = acc ++ ms.
Proof.
  induction ms as [|[k v] ms IH]; intros acc Hs Hp; [rewrite app_nil_r; reflexivity|].
  cbn [fold_left]. unfold add_member at 2. cbn [fst snd].
  inversion Hp as [|? ? Hk Hp']; subst. cbn in Hk. rewrite (plain_escape k Hk).
  rewrite obj_set_last.
  - rewrite IH; [rewrite <- app_assoc; reflexivity| |exact Hp'].
    rewrite <- app_assoc. exact Hs.
  - intros k' Hk'. clear IH. rewrite map_app in Hs. cbn [map fst] in Hs.
    induction acc as [|[a va] acc IHa]; [destruct Hk'|].
    cbn [map fst app] in Hs, Hk'. inversion Hs as [|? ? Hlt Hs']; subst.
    destruct Hk' as [<-|Hk']; [|apply IHa; assumption].
    apply Hlt. apply in_or_app. right. left. reflexivity.
Qed.

Lemma mk_obj_sorted : forall ms, sorted_keys (map fst ms) ->
  Forall (fun p => plain_key (fst p)) ms -> mk_obj ms = JObj ms.
Proof.
  intros ms Hs Hp. unfold mk_obj. change (JObj (fold_left add_member ms []) = JObj ms).
  rewrite fold_members_sorted; [reflexivity|exact Hs|exact Hp].
Qed.

(** ** The printed text denotes the same value *)

Lemma print_denotes_gen : forall (P : spec_float -> Prop) (R : spec_float -> json -> Prop),
  (forall x, P x -> exists j, num_text j (show_g17 x) /\ R x j) ->
  forall step pretty j, all_floats P j -> forall ind,
  exists j', denotes j' (print step pretty ind j) /\ rel_value R j j'.
Proof.
  intros P R HPR step pretty. induction j using json_ind2; intros Hst ind.
  - exists JNull. split; constructor.
  - exists (JBool v). split; [destruct v; constructor|constructor].
  - exists (JInt z). inversion Hst; subst. split; [|constructor].
    apply dn_num. apply show_int_text. assumption.
  - inversion Hst; subst. destruct (HPR x H0) as (j & H1 & H2).
    exists j. split; [apply dn_num; exact H1|apply sv_flt; exact H2].
  - exists (JStr s). split; [|constructor]. apply dn_str. apply escape_text.
  - inversion Hst as [| | | | |l' Hl|]; subst. rewrite print_arr.
    assert (HF : exists l', Forall2 (fun v v' => denotes v' (print step pretty (deeper step pretty ind) v)) l l'
                 /\ Forall2 (rel_value R) l l').
    { clear Hst. revert Hl. induction H as [|v l Hv Hl IH]; intros Hs.
      - exists []. split; constructor.
      - inversion Hs as [|? ? Hsv Hsl]; subst.
        destruct (Hv Hsv (deeper step pretty ind)) as (v' & H1 & H2).
        destruct (IH Hsl) as (l' & H3 & H4).
        exists (v' :: l'). split; constructor; assumption. }
    destruct HF as (l' & H1 & H2). exists (JArr l'). split; [|apply sv_arr; exact H2].
    apply dn_arr.
    replace (pnl pretty ++ spaces ind ++ ["]"%char]) with ((pnl pretty ++ spaces ind) ++ ["]"%char])
      by (rewrite <- app_assoc; reflexivity).
    apply elements_text; [exact H1|apply ws_pnl| |].
    + apply ws_app; [apply ws_pnl|apply ws_spaces].
    + apply spaced_app; [apply spaced_pnl|apply spaced_sp].
  - inversion Hst as [| | | | | |l' Hsk Hpk Hl]; subst. rewrite print_obj.
    assert (HF : exists l', Forall2 (fun p p' => fst p = fst p' /\
                     denotes (snd p') (print step pretty (deeper step pretty ind) (snd p))) l l'
                 /\ Forall2 (fun p q => fst p = fst q /\ rel_value R (snd p) (snd q)) l l').
    { clear Hst Hsk Hpk. revert Hl. induction H as [|[k v] l Hv Hl IH]; intros Hs.
      - exists []. split; constructor.
      - inversion Hs as [|? ? Hsv Hsl]; subst.
        destruct (Hv Hsv (deeper step pretty ind)) as (v' & H1 & H2).
        destruct (IH Hsl) as (l' & H3 & H4).
        exists ((k, v') :: l'). split; constructor; auto. }
    destruct HF as (l' & H1 & H2). exists (JObj l'). split; [|apply sv_obj; exact H2].
    assert (Hkeys : map fst l' = map fst l).
    { clear - H2. induction H2 as [|p q l l' [Hk _] _ IH]; [reflexivity|]. cbn. congruence. }
    assert (Hpk' : Forall (fun p => plain_key (fst p)) l').
    { clear - H2 Hpk. induction H2 as [|p q l l' [Hk _] _ IH]; [constructor|].
      inversion Hpk; subst. constructor; [rewrite <- Hk; assumption|auto]. }
    rewrite <- (mk_obj_sorted l'); [|rewrite Hkeys; exact Hsk|exact Hpk'].
    apply dn_obj.
    replace (pnl pretty ++ spaces ind ++ ["}"%char]) with ((pnl pretty ++ spaces ind) ++ ["}"%char])
      by (rewrite <- app_assoc; reflexivity).
    apply members_text; [exact H1|apply ws_pnl| |].
    + apply ws_app; [apply ws_pnl|apply ws_spaces].
    + apply spaced_app; [apply spaced_pnl|apply spaced_sp].
Qed.

Lemma dump_denotes_gen : forall (P : spec_float -> Prop) (R : spec_float -> json -> Prop),
  (forall x, P x -> exists j, num_text j (show_g17 x) /\ R x j) ->
  forall indent j, all_floats P j ->
  exists j', denotes j' (dump indent j) /\ rel_value R j j'.
Proof.
  intros P R HPR [n|] j Hs; apply (print_denotes_gen P R HPR); exact Hs.
Qed.

Lemma dump_obj_head : forall indent l, exists t, dump indent (JObj l) = "{"%char :: t.
Proof.
  intros [n|] l; cbn [dump]; rewrite print_obj; eexists; reflexivity.
Qed.

(** The round trip of a whole document; nothing of the text is left over. *)
Lemma dump_load_rest_gen : forall (P : spec_float -> Prop) (R : spec_float -> json -> Prop),
  (forall x, P x -> exists j, num_text j (show_g17 x) /\ R x j) ->
  forall indent l, all_floats P (JObj l) ->
  exists j', load_rest (dump indent (JObj l)) = Ok (j', []) /\ rel_value R (JObj l) j'.
Proof.
  intros P R HPR indent l Hs. destruct (dump_denotes_gen P R HPR indent (JObj l) Hs) as (j' & H1 & H2).
  exists j'. split; [|exact H2].
  destruct (dump_obj_head indent l) as (t & Et). rewrite Et in *.
  pose proof (load_rest_document j' [] t [] ws_nil H1) as H. cbn [app] in H.
  rewrite app_nil_r in H. exact H.
Qed.

Lemma print_denotes : forall step pretty j, storable j -> forall ind,
  exists j', denotes j' (print step pretty ind j) /\ same_value j j'.
Proof. exact (print_denotes_gen _ _ show_g17_text). Qed.

Lemma dump_denotes : forall indent j, storable j ->
  exists j', denotes j' (dump indent j) /\ same_value j j'.
Proof. exact (dump_denotes_gen _ _ show_g17_text). Qed.

Lemma dump_load_rest : forall indent l, storable (JObj l) ->
  exists j', load_rest (dump indent (JObj l)) = Ok (j', []) /\ same_value (JObj l) j'.
Proof. exact (dump_load_rest_gen _ _ show_g17_text). Qed.

Lemma dump_load : forall indent l, storable (JObj l) ->
  exists j', load (dump indent (JObj l)) = Ok j' /\ same_value (JObj l) j'.
Proof.
  intros indent l Hs. destruct (dump_load_rest indent l Hs) as (j' & H1 & H2).
  exists j'. split; [|exact H2]. unfold load. rewrite H1. reflexivity.
Qed.
