(** Proofs about the JSON printer and parser. *)
From Coq Require Import List Ascii String ZArith Bool Lia.
From Coq Require Import Floats.SpecFloat.
From Verif Require Import Base Dbl DigitsProofs Json JsonSpec.
Import ListNotations.
Local Open Scope Z_scope.

Lemma ceq_refl : forall c, ceq c c = true.
Proof. intros. apply Ascii.eqb_refl. Qed.

Lemma ceq_true : forall c d, ceq c d = true -> c = d.
Proof. intros. apply Ascii.eqb_eq. assumption. Qed.

Lemma ceq_false : forall c d, ceq c d = false -> c <> d.
Proof. intros. apply Ascii.eqb_neq. assumption. Qed.

Lemma ceq_neq : forall c d, c <> d -> ceq c d = false.
Proof. intros. apply Ascii.eqb_neq. assumption. Qed.

Lemma ok_inj : forall A (x y : A), Ok x = Ok y -> x = y.
Proof. intros A x y H. injection H. auto. Qed.

(** ** White space *)

Lemma skip_line_len : forall s, (List.length (skip_line s) <= List.length s)%nat.
Proof.
  induction s as [|c r IH]; cbn; [lia|]. destruct (ceq c nl); lia.
Qed.

Lemma skip_block_len : forall s, (List.length (skip_block s) <= List.length s)%nat.
Proof.
  induction s as [|c r IH]; cbn; [lia|].
  destruct (ceq c "*"%char); [|lia].
  destruct r as [|d r']; [cbn; lia|].
  destruct (ceq d "/"%char); cbn in *; lia.
Qed.

(** With enough fuel [skip_ws] does not run out, and more fuel changes nothing. *)
Lemma skip_ws_fuel : forall f f' s, (List.length s < f)%nat -> (List.length s < f')%nat ->
  skip_ws f s = skip_ws f' s.
Proof.
  induction f as [|f IH]; intros f' s Hf Hf'; [lia|].
  destruct f' as [|f']; [lia|]. cbn.
  destruct s as [|c r]; [reflexivity|]. cbn in Hf, Hf'.
  destruct (is_space c); [apply IH; lia|].
  destruct (ceq c "/"%char); [|reflexivity].
  destruct r as [|d r']; [reflexivity|]. cbn in Hf, Hf'.
  pose proof (skip_line_len r'). pose proof (skip_block_len r').
  destruct (ceq d "/"%char); [apply IH; lia|].
  destruct (ceq d "*"%char); [apply IH; lia|]. reflexivity.
Qed.

(** Unfolding equation of [next_char]. *)
Lemma next_char_eq : forall s, next_char s =
  match s with
  | [] => Ok (None, [])
  | c :: r =>
      if is_space c then next_char r
      else if ceq c "/"%char then
        match r with
        | d :: r' =>
            if ceq d "/"%char then next_char (skip_line r')
            else if ceq d "*"%char then next_char (skip_block r')
            else Ok (Some c, r)
        | [] => Ok (Some c, r)
        end
      else Ok (Some c, r)
  end.
Proof.
  intros s. unfold next_char at 1. cbn [skip_ws].
  destruct s as [|c r]; [reflexivity|]. cbn [List.length].
  destruct (is_space c); [reflexivity|].
  destruct (ceq c "/"%char); [|reflexivity].
  destruct r as [|d r']; [reflexivity|]. cbn [List.length].
  pose proof (skip_line_len r'). pose proof (skip_block_len r').
  destruct (ceq d "/"%char); [apply skip_ws_fuel; lia|].
  destruct (ceq d "*"%char); [apply skip_ws_fuel; lia|]. reflexivity.
Qed.

(** Induction on the length of the text. *)
Lemma len_ind : forall P : bytes -> Prop,
  (forall s, (forall s', (List.length s' < List.length s)%nat -> P s') -> P s) ->
  forall s, P s.
Proof.
  intros P H s. remember (List.length s) as n eqn:E. revert s E.
  induction n as [n IH] using lt_wf_ind. intros s ->.
  apply H. intros s' Hs'. exact (IH _ Hs' s' eq_refl).
Qed.

(** [next_char] always succeeds; what it returns. *)
Lemma next_char_ok : forall s, exists c r, next_char s = Ok (c, r) /\
  match c with
  | None => r = []
  | Some c => (List.length r < List.length s)%nat /\ is_space c = false
  end.
Proof.
  induction s as [s IH] using len_ind. rewrite next_char_eq.
  destruct s as [|c r]; [exists None, []; auto|].
  assert (IH' : forall s', (List.length s' <= List.length r)%nat ->
     exists c0 r0, next_char s' = Ok (c0, r0) /\
       match c0 with None => r0 = [] | Some c' =>
         (List.length r0 < List.length (c :: r))%nat /\ is_space c' = false end).
  { intros s' Hs'. destruct (IH s' ltac:(cbn; lia)) as (c0 & r0 & E & Hc). exists c0, r0.
    split; [exact E|]. destruct c0; [|assumption]. cbn. intuition lia. }
  destruct (is_space c) eqn:Es; [apply IH'; lia|].
  destruct (ceq c "/"%char).
  - destruct r as [|d r'].
    + exists (Some c), []. split; [reflexivity|]. cbn. split; [lia|assumption].
    + pose proof (skip_line_len r'). pose proof (skip_block_len r').
      destruct (ceq d "/"%char); [apply IH'; cbn; lia|].
      destruct (ceq d "*"%char); [apply IH'; cbn; lia|].
      exists (Some c), (d :: r'). split; [reflexivity|]. split; [cbn; lia|assumption].
  - exists (Some c), r. split; [reflexivity|]. split; [cbn; lia|assumption].
Qed.

Lemma next_char_len : forall s c r, next_char s = Ok (Some c, r) ->
  (List.length r < List.length s)%nat.
Proof.
  intros s c r H. destruct (next_char_ok s) as (c' & r' & E & Hc).
  rewrite H in E. injection E as <- <-. apply Hc.
Qed.

Lemma consume_ws_ok : forall s, exists s1, consume_ws s = Ok s1 /\
  (List.length s1 <= List.length s)%nat.
Proof.
  intros s. unfold consume_ws. destruct (next_char_ok s) as (c & r & E & Hc).
  rewrite E. cbn. destruct c as [c|]; eexists; (split; [reflexivity|]); cbn; [lia|].
  subst r. cbn. lia.
Qed.

(** The text left by consume_ws reads the same. *)
Lemma next_char_head : forall s c r, next_char s = Ok (Some c, r) ->
  next_char (c :: r) = Ok (Some c, r).
Proof.
  induction s as [s IH] using len_ind. intros c r H. rewrite next_char_eq in H.
  destruct s as [|c0 r0]; [discriminate|].
  destruct (is_space c0) eqn:Es; [apply (IH r0); [cbn; lia|exact H]|].
  destruct (ceq c0 "/"%char) eqn:Ec.
  - destruct r0 as [|d r'].
    + injection H as <- <-. rewrite next_char_eq, Es, Ec. reflexivity.
    + pose proof (skip_line_len r'). pose proof (skip_block_len r').
      destruct (ceq d "/"%char) eqn:Ed; [apply (IH (skip_line r')); [cbn; lia|exact H]|].
      destruct (ceq d "*"%char) eqn:Ed2; [apply (IH (skip_block r')); [cbn; lia|exact H]|].
      injection H as <- <-. rewrite next_char_eq, Es, Ec, Ed, Ed2. reflexivity.
  - injection H as <- <-. rewrite next_char_eq, Es, Ec. reflexivity.
Qed.

Lemma consume_ws_some : forall s c r, next_char s = Ok (Some c, r) ->
  consume_ws s = Ok (c :: r).
Proof. intros s c r H. unfold consume_ws. rewrite H. reflexivity. Qed.

Lemma consume_ws_inv : forall s c r, consume_ws s = Ok (c :: r) ->
  next_char s = Ok (Some c, r).
Proof.
  intros s c r H. unfold consume_ws in H.
  destruct (next_char_ok s) as (c' & r' & E & Hc). rewrite E in H. cbn in H.
  destruct c' as [c'|].
  - injection H as <- <-. exact E.
  - subst r'. discriminate.
Qed.

(** ** Lengths of what the leaf parsers leave *)

Lemma span_digits_spec : forall s ds t, span_digits s = (ds, t) ->
  s = ds ++ t /\ all_digits ds /\ (match t with c :: _ => is_digit c = false | [] => True end).
Proof.
  induction s as [|c r IH]; intros ds t H; cbn in H.
  - injection H as <- <-. repeat split. intros c [].
  - destruct (is_digit c) eqn:E.
    + destruct (span_digits r) as [d t'] eqn:Er. injection H as <- <-.
      destruct (IH d t' eq_refl) as (H1 & H2 & H3). subst r.
      repeat split; [|exact H3]. intros x [<-|Hx]; [exact E|apply H2; exact Hx].
    + injection H as <- <-. repeat split; [intros x []|exact E].
Qed.

Lemma span_num_spec : forall s v t, span_num s = (v, t) ->
  s = v ++ t /\ (forall c, In c v -> is_num_char c = true) /\
  (match t with c :: _ => is_num_char c = false | [] => True end).
Proof.
  induction s as [|c r IH]; intros ds t H; cbn in H.
  - injection H as <- <-. repeat split. intros c [].
  - destruct (is_num_char c) eqn:E.
    + destruct (span_num r) as [d t'] eqn:Er. injection H as <- <-.
      destruct (IH d t' eq_refl) as (H1 & H2 & H3). subst r.
      repeat split; [|exact H3]. intros x [<-|Hx]; [exact E|apply H2; exact Hx].
    + injection H as <- <-. repeat split; [intros x []|exact E].
Qed.

Lemma span_num_app : forall v t, (forall c, In c v -> is_num_char c = true) ->
  (match t with c :: _ => is_num_char c = false | [] => True end) ->
  span_num (v ++ t) = (v, t).
Proof.
  induction v as [|c v IH]; intros t Hv Ht; cbn.
  - destruct t as [|c t]; [reflexivity|]. cbn. rewrite Ht. reflexivity.
  - rewrite (Hv c (or_introl eq_refl)), IH; [reflexivity| |exact Ht].
    intros c' Hc'. apply Hv. right. exact Hc'.
Qed.

Lemma span_key_spec : forall s k t, span_key s = (k, t) ->
  s = k ++ t /\ (forall c, In c k -> c <> ":"%char /\ is_space c = false) /\
  (match t with c :: _ => c = ":"%char \/ is_space c = true | [] => True end).
Proof.
  induction s as [|c r IH]; intros ds t H; cbn in H.
  - injection H as <- <-. repeat split; destruct H.
  - destruct (ceq c ":"%char || is_space c) eqn:E.
    + injection H as <- <-. split; [reflexivity|]. split; [intros x []|].
      apply orb_prop in E as [E|E]; [left; apply ceq_true; exact E|right; exact E].
    + destruct (span_key r) as [d t'] eqn:Er. injection H as <- <-.
      destruct (IH d t' eq_refl) as (H1 & H2 & H3). subst r.
      apply orb_false_elim in E as [E1 E2].
      split; [reflexivity|]. split; [|exact H3].
      intros x [<-|Hx]; [split; [apply ceq_false; exact E1|exact E2]|apply H2; exact Hx].
Qed.

Lemma span_key_app : forall k t, (forall c, In c k -> c <> ":"%char /\ is_space c = false) ->
  (match t with c :: _ => c = ":"%char \/ is_space c = true | [] => True end) ->
  span_key (k ++ t) = (k, t).
Proof.
  induction k as [|c v IH]; intros t Hv Ht; cbn.
  - destruct t as [|c t]; [reflexivity|]. cbn.
    destruct Ht as [->|Ht]; [reflexivity|]. rewrite Ht, orb_true_r. reflexivity.
  - destruct (Hv c (or_introl eq_refl)) as [H1 H2].
    rewrite (ceq_neq _ _ H1), H2. cbn. rewrite IH; [reflexivity| |exact Ht].
    intros c' Hc'. apply Hv. right. exact Hc'.
Qed.

Lemma parse_string_len : forall s acc v r, parse_string s acc = Ok (v, r) ->
  (List.length r <= List.length s)%nat.
Proof.
  induction s as [s IH] using len_ind. intros acc v r H.
  destruct s as [|c s']; cbn [parse_string] in H; [injection H as <- <-; lia|].
  destruct (ceq c dquote); [injection H as <- <-; cbn; lia|].
  assert (IH' : forall s'' acc', (List.length s'' <= List.length s')%nat ->
     parse_string s'' acc' = Ok (v, r) -> (List.length r <= List.length (c :: s'))%nat).
  { intros s'' acc' Hl E. apply IH in E; [|cbn; lia]. cbn; lia. }
  destruct (ceq c bslash); [|apply IH' in H; [exact H|lia]].
  destruct s' as [|d r']; [injection H as <- <-; cbn; lia|].
  repeat match type of H with
  | (if ?x then _ else _) = _ => destruct x; [try (apply IH' in H; [exact H|cbn; lia])|]
  end.
  - destruct r' as [|h1 [|h2 [|h3 [|h4 r'']]]]; try discriminate.
    destruct (is_hex h1 && is_hex h2 && is_hex h3 && is_hex h4); [|discriminate].
    apply IH' in H; [exact H|cbn; lia].
  - apply IH' in H; [exact H|cbn; lia].
Qed.

Lemma expect_len : forall lit s r, expect lit s = Some r ->
  (List.length r <= List.length s)%nat.
Proof.
  induction lit as [|c l IH]; intros s r H; cbn in H.
  - injection H as <-. lia.
  - destruct s as [|d s']; [discriminate|]. destruct (ceq c d); [|discriminate].
    apply IH in H. cbn. lia.
Qed.

Lemma parse_number_len : forall s j r, parse_number s = Ok (j, r) ->
  (List.length r <= List.length s)%nat.
Proof.
  intros s j r H. unfold parse_number in H.
  destruct (span_num s) as [v t] eqn:E. apply span_num_spec in E as (-> & _ & _).
  rewrite app_length. destruct t as [|c t']; [discriminate|].
  destruct (ceq c "E"%char || ceq c "e"%char).
  - destruct (take_minus t') as [neg r1] eqn:Em.
    destruct (span_digits r1) as [ds t] eqn:Ed. apply span_digits_spec in Ed as (-> & _ & _).
    destruct (delim_next t); [|discriminate].
    assert (List.length t <= List.length t')%nat.
    { unfold take_minus in Em. destruct t' as [|c' t'']; [injection Em as _ E|].
      - apply (f_equal (@List.length ascii)) in E. rewrite app_length in E. cbn in *. lia.
      - destruct (ceq c' "-"%char); injection Em as _ E.
        + rewrite E. cbn. rewrite app_length. lia.
        + apply (f_equal (@List.length ascii)) in E. rewrite app_length in E. lia. }
    destruct (stol _); cbn in H; [|discriminate].
    destruct (existsb _ _).
    + destruct (stod v); cbn in H; [|discriminate]. injection H as <- <-. cbn. lia.
    + destruct (stol v); cbn in H; [|discriminate]. injection H as <- <-. cbn. lia.
  - destruct (is_delim c); [|discriminate].
    destruct (existsb _ _).
    + destruct (stod v); cbn in H; [|discriminate]. injection H as <- <-. cbn. lia.
    + destruct (stol v); cbn in H; [|discriminate]. injection H as <- <-. cbn. lia.
Qed.

(** The leaf parsers have no fuel. *)
Lemma parse_string_nofuel : forall s acc, parse_string s acc <> Er NoFuel.
Proof.
  induction s as [s IH] using len_ind. intros acc.
  destruct s as [|c s']; cbn [parse_string]; [discriminate|].
  destruct (ceq c dquote); [discriminate|].
  destruct (ceq c bslash); [|apply IH; cbn; lia].
  destruct s' as [|d r']; [discriminate|].
  repeat match goal with
  | |- (if ?x then _ else _) <> _ => destruct x; [try (apply IH; cbn; lia)|]
  end.
  - destruct r' as [|h1 [|h2 [|h3 [|h4 r'']]]]; try discriminate.
    destruct (is_hex h1 && is_hex h2 && is_hex h3 && is_hex h4); [|discriminate].
    apply IH; cbn; lia.
  - apply IH; cbn; lia.
Qed.

Lemma stol_nofuel : forall s, stol s <> Er NoFuel.
Proof.
  intros s. unfold stol. destruct (take_minus s) as [neg r].
  destruct (span_digits r) as [[|d ds] t]; [discriminate|].
  destruct (_ || _); discriminate.
Qed.

Lemma strtod_val_nofuel : forall s D k, strtod_val s D k <> Er NoFuel.
Proof.
  intros s D k. unfold strtod_val. destruct (rnd64 _ _ _); try discriminate.
  - destruct (D =? 0); discriminate.
  - destruct (_ && _); discriminate.
Qed.

Lemma stod_nofuel : forall s, stod s <> Er NoFuel.
Proof.
  intros s. unfold stod. destruct (take_minus s) as [neg r].
  destruct (span_digits r) as [ip r1].
  destruct (ip ++ _); [discriminate|]. apply strtod_val_nofuel.
Qed.

Lemma bind_nofuel : forall A B (r : res A) (k : A -> res B),
  r <> Er NoFuel -> (forall a, r = Ok a -> k a <> Er NoFuel) -> bind r k <> Er NoFuel.
Proof.
  intros A B r k Hr Hk. destruct r as [a|e]; cbn; [apply Hk; reflexivity|].
  intros H. injection H as ->. apply Hr. reflexivity.
Qed.

Lemma parse_number_nofuel : forall s, parse_number s <> Er NoFuel.
Proof.
  intros s. unfold parse_number. destruct (span_num s) as [v t].
  destruct t as [|c t']; [discriminate|].
  destruct (ceq c "E"%char || ceq c "e"%char).
  - destruct (take_minus t') as [neg r1]. destruct (span_digits r1) as [ds t].
    destruct (delim_next t); [|discriminate].
    apply bind_nofuel; [apply stol_nofuel|]. intros e _.
    apply bind_nofuel.
    + destruct (existsb _ _); [apply stod_nofuel|].
      apply bind_nofuel; [apply stol_nofuel|]. discriminate.
    + discriminate.
  - destruct (is_delim c); [|discriminate]. destruct (existsb _ _).
    + apply bind_nofuel; [apply stod_nofuel|discriminate].
    + apply bind_nofuel; [apply stol_nofuel|discriminate].
Qed.

Lemma parse_lit_nofuel : forall lit v s, parse_lit lit v s <> Er NoFuel.
Proof. intros. unfold parse_lit. destruct (expect lit s); discriminate. Qed.

(** ** Termination (C03) *)

(** Every parser leaves at most what it was given, parse_next strictly less. *)
Lemma parse_len : forall f,
  (forall s j r, parse_next f s = Ok (j, r) -> (List.length r < List.length s)%nat) /\
  (forall acc s j r, parse_arr f acc s = Ok (j, r) -> (List.length r < List.length s)%nat) /\
  (forall acc s j r, parse_obj f acc s = Ok (j, r) -> (List.length r < List.length s)%nat).
Proof.
  induction f as [|f (IHn & IHa & IHo)]; [repeat split; intros; discriminate|].
  repeat split.
  - intros s j r H. cbn [parse_next] in H.
    destruct (next_char_ok s) as (c & r0 & E & Hc). rewrite E in H. cbn [bind] in H.
    destruct c as [c|]; [|discriminate]. destruct Hc as [Hl _].
    destruct (ceq c "["%char); [apply IHa in H; lia|].
    destruct (ceq c "{"%char); [apply IHo in H; lia|].
    destruct (ceq c dquote).
    { destruct (parse_string r0 []) as [[v r']|] eqn:Ep; [|discriminate].
      apply parse_string_len in Ep. cbn in H. injection H as <- <-. lia. }
    unfold parse_lit in H.
    destruct (ceq c "t"%char).
    { destruct (expect _ r0) eqn:Ee; [|discriminate]. apply expect_len in Ee.
      injection H as <- <-. lia. }
    destruct (ceq c "f"%char).
    { destruct (expect _ r0) eqn:Ee; [|discriminate]. apply expect_len in Ee.
      injection H as <- <-. lia. }
    destruct (ceq c "n"%char).
    { destruct (expect _ r0) eqn:Ee; [|discriminate]. apply expect_len in Ee.
      injection H as <- <-. lia. }
    destruct (is_digit c || ceq c "-"%char) eqn:Ed; [|discriminate].
    unfold parse_number in H. cbn [span_num] in H.
    assert (En : is_num_char c = true).
    { unfold is_num_char. rewrite (orb_comm (ceq c "-"%char)), Ed. reflexivity. }
    rewrite En in H. destruct (span_num r0) as [v t] eqn:Es.
    assert (HP : (List.length r <= List.length r0)%nat).
    { pose proof Es as Es2. apply span_num_spec in Es as (-> & _ & _).
      rewrite app_length. destruct t as [|c' t']; [discriminate|].
      destruct (ceq c' "E"%char || ceq c' "e"%char).
      - destruct (take_minus t') as [neg r1] eqn:Em.
        destruct (span_digits r1) as [ds t] eqn:Edg. apply span_digits_spec in Edg as (-> & _ & _).
        destruct (delim_next t); [|discriminate].
        assert (List.length t <= List.length t')%nat.
        { unfold take_minus in Em. destruct t' as [|c'' t'']; [injection Em as _ E'|].
          - apply (f_equal (@List.length ascii)) in E'. rewrite app_length in E'. cbn in *. lia.
          - destruct (ceq c'' "-"%char); injection Em as _ E'.
            + rewrite E'. cbn. rewrite app_length. lia.
            + apply (f_equal (@List.length ascii)) in E'. rewrite app_length in E'. lia. }
        destruct (stol _); cbn [bind] in H; [|discriminate].
        destruct (if existsb _ _ then _ else _); cbn [bind] in H; [|discriminate].
        injection H as <- <-. cbn. lia.
      - destruct (is_delim c'); [|discriminate].
        destruct (existsb _ _).
        + destruct (stod _); cbn [bind] in H; [|discriminate]. injection H as <- <-. lia.
        + destruct (stol _); cbn [bind] in H; [|discriminate]. injection H as <- <-. lia. }
    lia.
  - intros acc s j r H. cbn [parse_arr] in H.
    destruct (consume_ws_ok s) as (s1 & E & Hl). rewrite E in H. cbn [bind] in H.
    destruct s1 as [|c r0]; [discriminate|]. cbn in Hl.
    destruct (ceq c "]"%char); [injection H as <- <-; lia|].
    destruct (parse_next f (c :: r0)) as [[v s2]|] eqn:En; [|discriminate].
    apply IHn in En. cbn [bind] in H.
    destruct (next_char_ok s2) as (c2 & s3 & E2 & Hc2). rewrite E2 in H. cbn [bind] in H.
    destruct c2 as [c2|]; [|discriminate]. destruct Hc2 as [Hl2 _]. cbn in En.
    destruct (ceq c2 ","%char); [apply IHa in H; lia|].
    destruct (ceq c2 "]"%char); [injection H as <- <-; lia|discriminate].
  - intros acc s j r H. cbn [parse_obj] in H.
    destruct (consume_ws_ok s) as (s1 & E & Hl). rewrite E in H. cbn [bind] in H.
    destruct s1 as [|c r0]; [discriminate|]. cbn in Hl.
    destruct (ceq c "}"%char); [injection H as <- <-; lia|].
    destruct (if ceq c dquote then parse_string r0 [] else Ok (span_key (c :: r0)))
      as [[k s2]|] eqn:Ek; [|discriminate].
    assert (Hk : (List.length s2 <= List.length (c :: r0))%nat).
    { destruct (ceq c dquote).
      - apply parse_string_len in Ek. cbn. lia.
      - apply ok_inj in Ek. apply span_key_spec in Ek as (Ek & _ & _). rewrite Ek, app_length. lia. }
    cbn [bind] in H.
    destruct (next_char_ok s2) as (c2 & s3 & E2 & Hc2). rewrite E2 in H. cbn [bind] in H.
    destruct c2 as [c2|]; [|discriminate]. destruct Hc2 as [Hl2 _]. cbn in Hk.
    destruct (ceq c2 ":"%char); [|discriminate].
    destruct (consume_ws_ok s3) as (s4 & E4 & Hl4). rewrite E4 in H. cbn [bind] in H.
    destruct (parse_next f s4) as [[v s5]|] eqn:En; [|discriminate].
    apply IHn in En. cbn [bind] in H.
    destruct (next_char_ok s5) as (c6 & s6 & E6 & Hc6). rewrite E6 in H. cbn [bind] in H.
    destruct c6 as [c6|]; [|discriminate]. destruct Hc6 as [Hl6 _].
    destruct (ceq c6 ","%char); [apply IHo in H; lia|].
    destruct (ceq c6 "}"%char); [injection H as <- <-; lia|discriminate].
Qed.

Lemma next_char_nofuel : forall s, next_char s <> Er NoFuel.
Proof. intros s. destruct (next_char_ok s) as (c & r & E & _). rewrite E. discriminate. Qed.

Lemma consume_ws_nofuel : forall s, consume_ws s <> Er NoFuel.
Proof. intros s. destruct (consume_ws_ok s) as (s1 & E & _). rewrite E. discriminate. Qed.

(** Enough fuel: twice the length of the text. *)
Lemma parse_nofuel : forall f,
  (forall s, (2 * List.length s + 1 <= f)%nat -> parse_next f s <> Er NoFuel) /\
  (forall acc s, (2 * List.length s + 2 <= f)%nat -> parse_arr f acc s <> Er NoFuel) /\
  (forall acc s, (2 * List.length s + 2 <= f)%nat -> parse_obj f acc s <> Er NoFuel).
Proof.
  induction f as [|f (IHn & IHa & IHo)]; [repeat split; intros; lia|].
  repeat split.
  - intros s Hf. cbn [parse_next].
    destruct (next_char_ok s) as (c & r0 & E & Hc). rewrite E. cbn [bind].
    destruct c as [c|]; [|discriminate]. destruct Hc as [Hl _].
    destruct (ceq c "["%char); [apply IHa; lia|].
    destruct (ceq c "{"%char); [apply IHo; lia|].
    destruct (ceq c dquote).
    { apply bind_nofuel; [apply parse_string_nofuel|]. intros [v r'] _. discriminate. }
    destruct (ceq c "t"%char); [apply parse_lit_nofuel|].
    destruct (ceq c "f"%char); [apply parse_lit_nofuel|].
    destruct (ceq c "n"%char); [apply parse_lit_nofuel|].
    destruct (is_digit c || ceq c "-"%char); [apply parse_number_nofuel|discriminate].
  - intros acc s Hf. cbn [parse_arr].
    destruct (consume_ws_ok s) as (s1 & E & Hl). rewrite E. cbn [bind].
    destruct s1 as [|c r0]; [discriminate|].
    destruct (ceq c "]"%char); [discriminate|].
    apply bind_nofuel; [apply IHn; lia|]. intros [v s2] En.
    apply (proj1 (parse_len f)) in En.
    destruct (next_char_ok s2) as (c2 & s3 & E2 & Hc2). rewrite E2. cbn [bind].
    destruct c2 as [c2|]; [|discriminate]. destruct Hc2 as [Hl2 _].
    destruct (ceq c2 ","%char); [apply IHa; lia|].
    destruct (ceq c2 "]"%char); discriminate.
  - intros acc s Hf. cbn [parse_obj].
    destruct (consume_ws_ok s) as (s1 & E & Hl). rewrite E. cbn [bind].
    destruct s1 as [|c r0]; [discriminate|].
    destruct (ceq c "}"%char); [discriminate|].
    apply bind_nofuel.
    { destruct (ceq c dquote); [apply parse_string_nofuel|discriminate]. }
    intros [k s2] Ek.
    assert (Hk : (List.length s2 <= List.length (c :: r0))%nat).
    { destruct (ceq c dquote).
      - apply parse_string_len in Ek. cbn. lia.
      - apply ok_inj in Ek. apply span_key_spec in Ek as (Ek & _ & _). rewrite Ek, app_length. lia. }
    destruct (next_char_ok s2) as (c2 & s3 & E2 & Hc2). rewrite E2. cbn [bind].
    destruct c2 as [c2|]; [|discriminate]. destruct Hc2 as [Hl2 _].
    destruct (ceq c2 ":"%char); [|discriminate].
    destruct (consume_ws_ok s3) as (s4 & E4 & Hl4). rewrite E4. cbn [bind].
    apply bind_nofuel; [apply IHn; lia|]. intros [v s5] En.
    apply (proj1 (parse_len f)) in En.
    destruct (next_char_ok s5) as (c6 & s6 & E6 & Hc6). rewrite E6. cbn [bind].
    destruct c6 as [c6|]; [|discriminate]. destruct Hc6 as [Hl6 _].
    destruct (ceq c6 ","%char); [apply IHo; lia|].
    destruct (ceq c6 "}"%char); discriminate.
Qed.

Lemma load_nofuel : forall s, load s <> Er NoFuel.
Proof.
  intros s. unfold load, load_rest. apply bind_nofuel; [|intros [v r] _; discriminate].
  destruct (next_char_ok s) as (c & r0 & E & Hc). rewrite E. cbn [bind].
  destruct c as [c|]; [|discriminate]. destruct Hc as [Hl _].
  destruct (ceq c "{"%char); [|discriminate].
  apply (proj1 (parse_nofuel _)). cbn [List.length]. lia.
Qed.

(** ** More fuel does not change a result *)

Lemma parse_mono1 : forall f,
  (forall s x, parse_next f s = x -> x <> Er NoFuel -> parse_next (S f) s = x) /\
  (forall acc s x, parse_arr f acc s = x -> x <> Er NoFuel -> parse_arr (S f) acc s = x) /\
  (forall acc s x, parse_obj f acc s = x -> x <> Er NoFuel -> parse_obj (S f) acc s = x).
Proof.
  induction f as [|f (IHn & IHa & IHo)];
    [repeat split; intros; cbn in H; congruence|].
  repeat split.
  - intros s x H Hx. cbn [parse_next] in H. remember (S f) as f1 eqn:Ef. cbn [parse_next].
    destruct (next_char s) as [[[c|] r0]|]; cbn [bind] in *; try assumption.
    destruct (ceq c "["%char); [subst f1; apply IHa; assumption|].
    destruct (ceq c "{"%char); [subst f1; apply IHo; assumption|]. assumption.
  - intros acc s x H Hx. cbn [parse_arr] in H. remember (S f) as f1 eqn:Ef. cbn [parse_arr].
    destruct (consume_ws s) as [[|c r0]|]; cbn [bind] in *; try assumption.
    destruct (ceq c "]"%char); [assumption|].
    destruct (parse_next f (c :: r0)) as [[v s2]|e] eqn:En.
    + subst f1. rewrite (IHn _ _ En ltac:(discriminate)). cbn [bind] in *.
      destruct (next_char s2) as [[[c2|] s3]|]; cbn [bind] in *; try assumption.
      destruct (ceq c2 ","%char); [apply IHa; assumption|assumption].
    + subst f1. cbn [bind] in H. subst x.
      rewrite (IHn _ _ En); [reflexivity|congruence].
  - intros acc s x H Hx. cbn [parse_obj] in H. remember (S f) as f1 eqn:Ef. cbn [parse_obj].
    destruct (consume_ws s) as [[|c r0]|]; cbn [bind] in *; try assumption.
    destruct (ceq c "}"%char); [assumption|].
    destruct (if ceq c dquote then _ else _) as [[k s2]|e]; cbn [bind] in *; [|assumption].
    destruct (next_char s2) as [[[c2|] s3]|]; cbn [bind] in *; try assumption.
    destruct (ceq c2 ":"%char); [|assumption].
    destruct (consume_ws s3) as [s4|]; cbn [bind] in *; [|assumption].
    destruct (parse_next f s4) as [[v s5]|e] eqn:En.
    + subst f1. rewrite (IHn _ _ En ltac:(discriminate)). cbn [bind] in *.
      destruct (next_char s5) as [[[c6|] s6]|]; cbn [bind] in *; try assumption.
      destruct (ceq c6 ","%char); [apply IHo; assumption|assumption].
    + subst f1. cbn [bind] in H. subst x.
      rewrite (IHn _ _ En); [reflexivity|congruence].
Qed.

Lemma parse_next_mono : forall f f' s x, parse_next f s = x -> x <> Er NoFuel ->
  (f <= f')%nat -> parse_next f' s = x.
Proof.
  intros f f' s x H Hx Hle. induction Hle; [exact H|].
  apply (proj1 (parse_mono1 m)); assumption.
Qed.

Lemma parse_arr_mono : forall f f' acc s x, parse_arr f acc s = x -> x <> Er NoFuel ->
  (f <= f')%nat -> parse_arr f' acc s = x.
Proof.
  intros f f' acc s x H Hx Hle. induction Hle; [exact H|].
  apply (proj1 (proj2 (parse_mono1 m))); assumption.
Qed.

Lemma parse_obj_mono : forall f f' acc s x, parse_obj f acc s = x -> x <> Er NoFuel ->
  (f <= f')%nat -> parse_obj f' acc s = x.
Proof.
  intros f f' acc s x H Hx Hle. induction Hle; [exact H|].
  apply (proj2 (proj2 (parse_mono1 m))); assumption.
Qed.

(** Two fuels that both suffice agree. *)
Lemma parse_next_agree : forall f f' s, parse_next f s <> Er NoFuel ->
  parse_next f' s <> Er NoFuel -> parse_next f s = parse_next f' s.
Proof.
  intros f f' s H H'. destruct (Nat.le_ge_cases f f') as [L|L].
  - symmetry. apply (parse_next_mono f); [reflexivity|assumption|assumption].
  - apply (parse_next_mono f'); [reflexivity|assumption|assumption].
Qed.

(** ** A document read to its end cannot be a prefix of another (C04) *)

Lemma skip_line_app : forall s q, In nl s -> skip_line (s ++ q) = skip_line s ++ q.
Proof.
  induction s as [|c r IH]; intros q H; [destruct H|]. cbn.
  destruct (ceq c nl) eqn:E; [reflexivity|]. apply IH.
  destruct H as [H|H]; [|exact H]. subst c. rewrite ceq_refl in E. discriminate.
Qed.

(** A block comment that is closed stays closed at the same place. *)
Lemma skip_line_app2 : forall s q, skip_line s <> [] -> skip_line (s ++ q) = skip_line s ++ q.
Proof.
  induction s as [|c r IH]; intros q H; [cbn in H; congruence|]. cbn in *.
  destruct (ceq c nl) eqn:E; [reflexivity|]. apply IH. exact H.
Qed.

Lemma skip_block_app : forall s q, skip_block s <> [] -> skip_block (s ++ q) = skip_block s ++ q.
Proof.
  induction s as [|c r IH]; intros q H; [cbn in H; congruence|]. cbn in *.
  destruct (ceq c "*"%char) eqn:E; [|apply IH; exact H].
  destruct r as [|d r']; [congruence|]. cbn [app].
  destruct (ceq d "/"%char) eqn:Ed; [reflexivity|].
  apply IH. exact H.
Qed.

(** [next_char] is not disturbed by text added after what it returned, unless
    it returned a lone slash at the very end. *)
Lemma next_char_app : forall s q c r, next_char s = Ok (Some c, r) ->
  c <> "/"%char \/ r <> [] ->
  next_char (s ++ q) = Ok (Some c, r ++ q).
Proof.
  induction s as [s IH] using len_ind. intros q c r H Hr. rewrite next_char_eq in H.
  destruct s as [|c0 r0]; [discriminate|]. rewrite next_char_eq. cbn [app].
  destruct (is_space c0) eqn:Es; [apply (IH r0); [cbn; lia|exact H|exact Hr]|].
  destruct (ceq c0 "/"%char) eqn:Ec.
  - destruct r0 as [|d r'].
    + injection H as <- <-. destruct Hr as [Hr|Hr]; [|congruence].
      apply ceq_true in Ec. congruence.
    + cbn [app]. pose proof (skip_line_len r'). pose proof (skip_block_len r').
      destruct (ceq d "/"%char).
      { rewrite skip_line_app2; [apply IH; [cbn; lia|exact H|exact Hr]|].
        intros En. rewrite En, next_char_eq in H. discriminate. }
      destruct (ceq d "*"%char).
      { rewrite skip_block_app; [apply IH; [cbn; lia|exact H|exact Hr]|].
        intros En. rewrite En, next_char_eq in H. discriminate. }
      injection H as <- <-. reflexivity.
  - injection H as <- <-. reflexivity.
Qed.

Lemma consume_ws_app : forall s q c r, consume_ws s = Ok (c :: r) ->
  c <> "/"%char \/ r <> [] -> consume_ws (s ++ q) = Ok (c :: r ++ q).
Proof.
  intros s q c r H Hr. apply consume_ws_inv in H.
  apply consume_ws_some. apply next_char_app; assumption.
Qed.

Lemma parse_string_app : forall s q acc v r, parse_string s acc = Ok (v, r) -> r <> [] ->
  parse_string (s ++ q) acc = Ok (v, r ++ q).
Proof.
  induction s as [s IH] using len_ind. intros q acc v r H Hr.
  destruct s as [|c s']; cbn [parse_string] in H; [injection H as <- <-; congruence|].
  cbn [app parse_string].
  destruct (ceq c dquote); [injection H as <- <-; reflexivity|].
  destruct (ceq c bslash); [|apply IH; [cbn; lia|exact H|exact Hr]].
  destruct s' as [|d r']; [injection H as <- <-; congruence|]. cbn [app].
  repeat match type of H with
  | (if ?x then _ else _) = _ => destruct x; [try (apply IH; [cbn; lia|exact H|exact Hr])|]
  end.
  - destruct r' as [|h1 [|h2 [|h3 [|h4 r'']]]]; try discriminate. cbn [app].
    destruct (is_hex h1 && is_hex h2 && is_hex h3 && is_hex h4); [|discriminate].
    apply IH; [cbn; lia|exact H|exact Hr].
  - apply IH; [cbn; lia|exact H|exact Hr].
Qed.

Lemma expect_app : forall lit s q r, expect lit s = Some r -> expect lit (s ++ q) = Some (r ++ q).
Proof.
  induction lit as [|c l IH]; intros s q r H; cbn in *.
  - injection H as <-. reflexivity.
  - destruct s as [|d s']; [discriminate|]. cbn. destruct (ceq c d); [|discriminate].
    apply IH. exact H.
Qed.

Lemma span_digits_app2 : forall s q ds t, span_digits s = (ds, t) -> t <> [] ->
  span_digits (s ++ q) = (ds, t ++ q).
Proof.
  induction s as [|c r IH]; intros q ds t H Ht; cbn in H.
  - injection H as <- <-. congruence.
  - cbn. destruct (is_digit c).
    + destruct (span_digits r) as [d t'] eqn:Er. injection H as <- <-.
      rewrite (IH q d t' eq_refl Ht). reflexivity.
    + injection H as <- <-. reflexivity.
Qed.

Lemma span_num_app2 : forall s q v t, span_num s = (v, t) -> t <> [] ->
  span_num (s ++ q) = (v, t ++ q).
Proof.
  induction s as [|c r IH]; intros q ds t H Ht; cbn in H.
  - injection H as <- <-. congruence.
  - cbn. destruct (is_num_char c).
    + destruct (span_num r) as [d t'] eqn:Er. injection H as <- <-.
      rewrite (IH q d t' eq_refl Ht). reflexivity.
    + injection H as <- <-. reflexivity.
Qed.

Lemma span_key_app2 : forall s q k t, span_key s = (k, t) -> t <> [] ->
  span_key (s ++ q) = (k, t ++ q).
Proof.
  induction s as [|c r IH]; intros q ds t H Ht; cbn in H.
  - injection H as <- <-. congruence.
  - cbn. destruct (ceq c ":"%char || is_space c).
    + injection H as <- <-. reflexivity.
    + destruct (span_key r) as [d t'] eqn:Er. injection H as <- <-.
      rewrite (IH q d t' eq_refl Ht). reflexivity.
Qed.

Lemma parse_number_app : forall s q j r, parse_number s = Ok (j, r) ->
  parse_number (s ++ q) = Ok (j, r ++ q) /\ r <> [].
Proof.
  intros s q j r H. unfold parse_number in *.
  destruct (span_num s) as [v t] eqn:E. destruct t as [|c t']; [discriminate|].
  rewrite (span_num_app2 _ q _ _ E) by discriminate. cbn [app].
  destruct (ceq c "E"%char || ceq c "e"%char).
  - destruct (take_minus t') as [neg r1] eqn:Em.
    destruct (span_digits r1) as [ds t] eqn:Ed.
    destruct (delim_next t) eqn:Et; [|discriminate].
    assert (Ht : t <> []) by (intros ->; discriminate Et).
    assert (Hm : take_minus (t' ++ q) = (neg, r1 ++ q)).
    { unfold take_minus in *. destruct t' as [|c' t''].
      - injection Em as <- <-. cbn in Ed. injection Ed as <- <-. congruence.
      - cbn. destruct (ceq c' "-"%char); injection Em as <- <-; reflexivity. }
    rewrite Hm. rewrite (span_digits_app2 _ q _ _ Ed Ht).
    replace (delim_next (t ++ q)) with true by (destruct t; [congruence|symmetry; exact Et]).
    destruct (stol _); cbn [bind] in *; [|discriminate].
    destruct (if existsb _ _ then _ else _); cbn [bind] in *; [|discriminate].
    injection H as <- <-. split; [reflexivity|exact Ht].
  - destruct (is_delim c); [|discriminate]. destruct (existsb _ _).
    + destruct (stod v); cbn [bind] in *; [|discriminate]. injection H as <- <-.
      split; [reflexivity|discriminate].
    + destruct (stol v); cbn [bind] in *; [|discriminate]. injection H as <- <-.
      split; [reflexivity|discriminate].
Qed.

(** The value starts with an opening bracket or brace. *)
Definition starts_container (s : bytes) : Prop :=
  exists r, next_char s = Ok (Some "["%char, r) \/ next_char s = Ok (Some "{"%char, r).

Lemma parse_app : forall f,
  (forall s q j r, parse_next f s = Ok (j, r) -> r <> [] \/ starts_container s ->
     parse_next f (s ++ q) = Ok (j, r ++ q)) /\
  (forall acc s q j r, parse_arr f acc s = Ok (j, r) ->
     parse_arr f acc (s ++ q) = Ok (j, r ++ q)) /\
  (forall acc s q j r, parse_obj f acc s = Ok (j, r) ->
     parse_obj f acc (s ++ q) = Ok (j, r ++ q)).
Proof.
  induction f as [|f (IHn & IHa & IHo)]; [repeat split; intros; discriminate|].
  repeat split.
  - intros s q j r H Hr. cbn [parse_next] in *.
    destruct (next_char_ok s) as (c & r0 & E & _). rewrite E in H. cbn [bind] in H.
    destruct c as [c|]; [|discriminate].
    assert (Hc : c <> "/"%char) by (intros ->; cbn in H; discriminate).
    rewrite (next_char_app s q c r0 E (or_introl Hc)). cbn [bind].
    destruct (ceq c "["%char) eqn:E1; [apply IHa; exact H|].
    destruct (ceq c "{"%char) eqn:E2; [apply IHo; exact H|].
    assert (Hr' : r <> []).
    { destruct Hr as [Hr|(r1 & [Hs|Hs])]; [exact Hr| |]; rewrite E in Hs; injection Hs as -> _.
      - rewrite ceq_refl in E1. discriminate.
      - rewrite ceq_refl in E2. discriminate. }
    destruct (ceq c dquote).
    { destruct (parse_string r0 []) as [[v r']|] eqn:Ep; [|discriminate].
      cbn [bind] in H. injection H as <- <-.
      rewrite (parse_string_app _ q _ _ _ Ep Hr'). reflexivity. }
    unfold parse_lit in *.
    destruct (ceq c "t"%char).
    { destruct (expect _ r0) eqn:Ee; [|discriminate]. rewrite (expect_app _ _ q _ Ee).
      injection H as <- <-. reflexivity. }
    destruct (ceq c "f"%char).
    { destruct (expect _ r0) eqn:Ee; [|discriminate]. rewrite (expect_app _ _ q _ Ee).
      injection H as <- <-. reflexivity. }
    destruct (ceq c "n"%char).
    { destruct (expect _ r0) eqn:Ee; [|discriminate]. rewrite (expect_app _ _ q _ Ee).
      injection H as <- <-. reflexivity. }
    destruct (is_digit c || ceq c "-"%char); [|discriminate].
    exact (proj1 (parse_number_app (c :: r0) q j r H)).
  - intros acc s q j r H. cbn [parse_arr] in *.
    destruct (consume_ws s) as [s1|] eqn:E; [|discriminate]. cbn [bind] in H.
    destruct s1 as [|c r0]; [discriminate|].
    destruct (ceq c "]"%char) eqn:E1.
    { injection H as <- <-. apply ceq_true in E1. subst c.
      rewrite (consume_ws_app _ q _ _ E) by (left; discriminate). cbn [bind].
      reflexivity. }
    destruct (parse_next f (c :: r0)) as [[v s2]|] eqn:En; [|discriminate]. cbn [bind] in H.
    destruct (next_char_ok s2) as (c2 & s3 & E2 & Hc2). rewrite E2 in H. cbn [bind] in H.
    destruct c2 as [c2|]; [|discriminate].
    assert (Hs2 : s2 <> []) by (intros ->; cbn in E2; discriminate).
    assert (Hc : c <> "/"%char \/ r0 <> []).
    { right. intros ->. apply (proj1 (parse_len f)) in En. destruct s2; [congruence|cbn in En; lia]. }
    rewrite (consume_ws_app _ q _ _ E Hc). cbn [bind]. rewrite E1.
    change (c :: r0 ++ q) with ((c :: r0) ++ q).
    rewrite (IHn _ q _ _ En (or_introl Hs2)). cbn [bind].
    assert (Hc2' : c2 <> "/"%char) by (intros ->; cbn in H; discriminate).
    rewrite (next_char_app s2 q c2 s3 E2 (or_introl Hc2')). cbn [bind].
    destruct (ceq c2 ","%char); [apply IHa; exact H|].
    destruct (ceq c2 "]"%char); [injection H as <- <-; reflexivity|discriminate].
  - intros acc s q j r H. cbn [parse_obj] in *.
    destruct (consume_ws s) as [s1|] eqn:E; [|discriminate]. cbn [bind] in H.
    destruct s1 as [|c r0]; [discriminate|].
    destruct (ceq c "}"%char) eqn:E1.
    { injection H as <- <-. apply ceq_true in E1. subst c.
      rewrite (consume_ws_app _ q _ _ E) by (left; discriminate). cbn [bind].
      reflexivity. }
    destruct (if ceq c dquote then _ else _) as [[k s2]|] eqn:Ek; [|discriminate].
    cbn [bind] in H.
    destruct (next_char_ok s2) as (c2 & s3 & E2 & Hc2). rewrite E2 in H. cbn [bind] in H.
    destruct c2 as [c2|]; [|discriminate].
    assert (Hs2 : s2 <> []) by (intros ->; cbn in E2; discriminate).
    assert (Hc : c <> "/"%char \/ r0 <> []).
    { destruct (ceq c dquote) eqn:Eq; [left; apply ceq_true in Eq; subst c; discriminate|].
      right. intros ->. apply ok_inj in Ek. cbn in Ek.
      destruct (ceq c2 ":"%char) eqn:E3; [|discriminate]. apply ceq_true in E3. subst c2.
      destruct (ceq c ":"%char || is_space c) eqn:E4.
      - injection Ek as <- <-. rewrite next_char_eq in E2.
        destruct (is_space c) eqn:E5.
        + rewrite next_char_eq in E2. discriminate.
        + rewrite orb_false_r in E4. apply ceq_true in E4. subst c.
          cbn in E2. injection E2 as <-.
          destruct (consume_ws_ok []) as (s4 & E6 & Hl). rewrite E6 in H. cbn [bind] in H.
          destruct s4; [|cbn in Hl; lia]. destruct f; cbn in H; discriminate.
      - injection Ek as <- <-. congruence. }
    rewrite (consume_ws_app _ q _ _ E Hc). cbn [bind]. rewrite E1.
    assert (Ek' : (if ceq c dquote then parse_string (r0 ++ q) [] else Ok (span_key (c :: r0 ++ q)))
                  = Ok (k, s2 ++ q)).
    { destruct (ceq c dquote).
      - apply parse_string_app; assumption.
      - apply ok_inj in Ek. change (c :: r0 ++ q) with ((c :: r0) ++ q).
        rewrite (span_key_app2 _ q _ _ Ek Hs2). reflexivity. }
    rewrite Ek'. cbn [bind].
    assert (Hc2' : c2 <> "/"%char) by (intros ->; cbn in H; discriminate).
    rewrite (next_char_app s2 q c2 s3 E2 (or_introl Hc2')). cbn [bind].
    destruct (ceq c2 ":"%char); [|discriminate].
    destruct (consume_ws s3) as [s4|] eqn:E4; [|discriminate]. cbn [bind] in H.
    destruct (parse_next f s4) as [[v s5]|] eqn:En; [|discriminate]. cbn [bind] in H.
    destruct (next_char_ok s5) as (c6 & s6 & E6 & Hc6). rewrite E6 in H. cbn [bind] in H.
    destruct c6 as [c6|]; [|discriminate].
    assert (Hs5 : s5 <> []) by (intros ->; cbn in E6; discriminate).
    destruct s4 as [|c4 r4]; [apply (proj1 (parse_len f)) in En; cbn in En; lia|].
    assert (Hc4 : c4 <> "/"%char \/ r4 <> []).
    { right. intros ->. apply (proj1 (parse_len f)) in En. destruct s5; [congruence|cbn in En; lia]. }
    rewrite (consume_ws_app _ q _ _ E4 Hc4). cbn [bind].
    change (c4 :: r4 ++ q) with ((c4 :: r4) ++ q).
    rewrite (IHn _ q _ _ En (or_introl Hs5)). cbn [bind].
    assert (Hc6' : c6 <> "/"%char) by (intros ->; cbn in H; discriminate).
    rewrite (next_char_app s5 q c6 s6 E6 (or_introl Hc6')). cbn [bind].
    destruct (ceq c6 ","%char); [apply IHo; exact H|].
    destruct (ceq c6 "}"%char); [injection H as <- <-; reflexivity|discriminate].
Qed.

(** Adding text after a loadable document does not change what is read. *)
Lemma load_rest_app : forall s q j r, load_rest s = Ok (j, r) ->
  load_rest (s ++ q) = Ok (j, r ++ q).
Proof.
  intros s q j r H. unfold load_rest in *.
  destruct (next_char_ok s) as (c & r0 & E & Hc). rewrite E in H. cbn [bind] in H.
  destruct c as [c|]; [|discriminate].
  destruct (ceq c "{"%char) eqn:E1; [|discriminate]. apply ceq_true in E1. subst c.
  rewrite (next_char_app s q _ _ E) by (left; discriminate). cbn [bind].
  replace (ceq "{"%char "{"%char) with true by reflexivity.
  apply parse_next_mono with (f := (2 * List.length s + 3)%nat).
  - change ("{"%char :: r0 ++ q) with (("{"%char :: r0) ++ q).
    apply (proj1 (parse_app _)); [exact H|].
    right. exists r0. right. apply (next_char_head _ _ _ E).
  - discriminate.
  - rewrite app_length. lia.
Qed.

Lemma load_prefix_rejected : forall s v p q,
  load_rest s = Ok (v, []) -> s = p ++ q -> q <> [] ->
  forall w, load p <> Ok w.
Proof.
  intros s v p q H -> Hq w Hp. unfold load in Hp.
  destruct (load_rest p) as [[w' r]|] eqn:E; [|discriminate].
  apply (load_rest_app _ q) in E. rewrite H in E. injection E as _ E.
  symmetry in E. apply app_eq_nil in E as [_ E]. congruence.
Qed.

(** ** Texts of the grammar are read as they should (soundness of the parser
       for [denotes]) *)

Lemma skip_line_body : forall body w, ~ In nl body -> skip_line (body ++ nl :: w) = w.
Proof.
  induction body as [|c r IH]; intros w H; cbn.
  - reflexivity.
  - destruct (ceq c nl) eqn:E.
    + apply ceq_true in E. subst c. exfalso. apply H. left. reflexivity.
    + apply IH. intros Hi. apply H. right. exact Hi.
Qed.

Lemma skip_block_body : forall body w, ~ has_close body ->
  skip_block (body ++ "*"%char :: "/"%char :: w) = w.
Proof.
  induction body as [|c r IH]; intros w H; cbn [app skip_block].
  - reflexivity.
  - assert (Hr : ~ has_close r).
    { intros (p & q & E). apply H. exists (c :: p), q. rewrite E. reflexivity. }
    destruct (ceq c "*"%char) eqn:E.
    + apply ceq_true in E. subst c.
      destruct (r ++ "*"%char :: "/"%char :: w) as [|d r'] eqn:E2.
      { destruct r; discriminate. }
      destruct (ceq d "/"%char) eqn:Ed.
      * apply ceq_true in Ed. subst d. destruct r as [|d' r'']; [discriminate|].
        cbn in E2. injection E2 as -> _. exfalso. apply H. exists [], r''. reflexivity.
      * rewrite <- E2. apply IH. exact Hr.
    + apply IH. exact Hr.
Qed.

Lemma next_char_ws : forall w, ws w -> forall s, next_char (w ++ s) = next_char s.
Proof.
  induction 1 as [|c w Hc _ IH|body w Hb _ IH|body w Hb _ IH]; intros s.
  - reflexivity.
  - cbn [app]. rewrite next_char_eq, Hc. apply IH.
  - cbn [app]. rewrite next_char_eq. cbn [is_space]. rewrite <- app_assoc. cbn [app].
    replace (is_space "/"%char) with false by reflexivity.
    replace (ceq "/"%char "/"%char) with true by reflexivity. cbv iota.
    rewrite skip_line_body by exact Hb. apply IH.
  - cbn [app]. rewrite next_char_eq. rewrite <- app_assoc. cbn [app].
    replace (is_space "/"%char) with false by reflexivity.
    replace (ceq "/"%char "/"%char) with true by reflexivity.
    replace (ceq "*"%char "/"%char) with false by reflexivity.
    replace (ceq "*"%char "*"%char) with true by reflexivity. cbv iota.
    rewrite skip_block_body by exact Hb. apply IH.
Qed.

Lemma next_char_plain : forall c s, is_space c = false -> c <> "/"%char ->
  next_char (c :: s) = Ok (Some c, s).
Proof.
  intros c s Hs Hc. rewrite next_char_eq, Hs, (ceq_neq _ _ Hc). reflexivity.
Qed.

Lemma consume_ws_plain : forall w c s, ws w -> is_space c = false -> c <> "/"%char ->
  consume_ws (w ++ c :: s) = Ok (c :: s).
Proof.
  intros w c s Hw Hs Hc. apply consume_ws_some. rewrite next_char_ws by exact Hw.
  apply next_char_plain; assumption.
Qed.

Lemma parse_string_text : forall v t, str_text v t -> forall acc s,
  parse_string (t ++ dquote :: s) acc = Ok (rev acc ++ v, s).
Proof.
  induction 1; intros acc s; cbn [app parse_string];
    try (replace (ceq bslash dquote) with false by reflexivity;
         replace (ceq bslash bslash) with true by reflexivity; cbv iota;
         repeat (match goal with
           |- context [ceq ?x ?y] =>
             let v := eval compute in (ceq x y) in
             lazymatch v with
             | true => change (ceq x y) with true
             | false => change (ceq x y) with false
             end
           end; cbv iota);
         rewrite IHstr_text; cbn [rev]; rewrite <- app_assoc; reflexivity).
  - rewrite ceq_refl, app_nil_r. reflexivity.
  - rewrite (ceq_neq _ _ H), (ceq_neq _ _ H0), IHstr_text. cbn [rev].
    rewrite <- app_assoc. reflexivity.
  - replace (ceq bslash dquote) with false by reflexivity.
    replace (ceq bslash bslash) with true by reflexivity. cbv iota.
    repeat (match goal with
       |- context [ceq ?x ?y] => let v := eval compute in (ceq x y) in
             lazymatch v with
             | true => change (ceq x y) with true
             | false => change (ceq x y) with false
             end
     end; cbv iota).
    rewrite H, H0, H1, H2. cbn [andb]. rewrite IHstr_text. cbn [rev].
    rewrite <- !app_assoc. reflexivity.
Qed.

(** Numbers *)

Lemma is_digit_num : forall c, is_digit c = true -> is_num_char c = true.
Proof. intros c H. unfold is_num_char. rewrite H. destruct (ceq c "-"%char); reflexivity. Qed.

Lemma is_digit_not_dot : forall c, is_digit c = true -> ceq c "."%char = false.
Proof.
  intros c H. apply ceq_neq. intros ->. discriminate.
Qed.

Lemma is_digit_not_minus : forall c, is_digit c = true -> ceq c "-"%char = false.
Proof.
  intros c H. apply ceq_neq. intros ->. discriminate.
Qed.

Lemma is_delim_not_num : forall c, is_delim c = true -> is_num_char c = false /\
  ceq c "E"%char = false /\ ceq c "e"%char = false /\ is_digit c = false.
Proof.
  intros c H. unfold is_delim in H.
  assert (Hs : is_space c = true -> is_num_char c = false /\
     ceq c "E"%char = false /\ ceq c "e"%char = false /\ is_digit c = false).
  { intros Hs. unfold is_num_char.
    assert (is_digit c = false).
    { unfold is_space, is_digit in *. lia. }
    rewrite H0. repeat split; try reflexivity;
      rewrite ?ceq_neq; try reflexivity; intros ->; discriminate. }
  destruct (is_space c); [apply Hs; reflexivity|].
  cbn in H. apply orb_prop in H as [H|H]; [apply orb_prop in H as [H|H]|];
    apply ceq_true in H; subst c; repeat split; reflexivity.
Qed.

Lemma sign_num_chars : forall neg c, In c (sign_str neg) -> is_num_char c = true.
Proof.
  intros neg c H. destruct neg; cbn in H; [destruct H as [<-|[]]; reflexivity|destruct H].
Qed.

Lemma take_minus_sign : forall neg ds, all_digits ds ->
  take_minus (sign_str neg ++ ds) = (neg, ds).
Proof.
  intros neg ds H. destruct neg; [reflexivity|]. cbn [sign_str app].
  unfold take_minus. destruct ds as [|c ds]; [reflexivity|].
  rewrite (is_digit_not_minus c) by (apply H; left; reflexivity). reflexivity.
Qed.

Lemma take_minus_sign_gen : forall neg ds t, ds <> [] -> all_digits ds ->
  take_minus (sign_str neg ++ ds ++ t) = (neg, ds ++ t).
Proof.
  intros neg ds t Hne H. destruct neg; [reflexivity|]. cbn [sign_str app].
  unfold take_minus. destruct ds as [|c ds]; [congruence|]. cbn [app].
  rewrite (is_digit_not_minus c) by (apply H; left; reflexivity). reflexivity.
Qed.

Lemma all_digits_forallb : forall ds, all_digits ds -> forallb is_digit ds = true.
Proof. intros ds H. apply forallb_forall. exact H. Qed.

Lemma span_digits_all : forall ds, all_digits ds -> span_digits ds = (ds, []).
Proof.
  intros ds H. rewrite <- (app_nil_r ds) at 1. apply span_digits_app; [apply all_digits_forallb; exact H|exact I].
Qed.

Lemma stol_text : forall neg ds, ds <> [] -> all_digits ds ->
  is_long (signed neg (digits_val ds)) ->
  stol (sign_str neg ++ ds) = Ok (signed neg (digits_val ds)).
Proof.
  intros neg ds Hne Hd Hl. unfold stol. rewrite take_minus_sign by exact Hd.
  rewrite span_digits_all by exact Hd. destruct ds as [|c ds]; [congruence|].
  unfold is_long, signed in *.
  replace ((_ <? long_min) || _) with false by lia. reflexivity.
Qed.

Lemma stod_text : forall neg ip fp, ip <> [] -> all_digits ip -> all_digits fp ->
  stod (sign_str neg ++ ip ++ "."%char :: fp)
  = strtod_val neg (digits_val (ip ++ fp)) (- Z.of_nat (List.length fp)).
Proof.
  intros neg ip fp Hne Hi Hf. unfold stod.
  rewrite take_minus_sign_gen by assumption.
  rewrite span_digits_app; [|apply all_digits_forallb; exact Hi|reflexivity].
  replace (ceq "."%char "."%char) with true by reflexivity. cbv iota.
  rewrite span_digits_all by exact Hf. cbn [fst].
  destruct ip as [|c ip]; [congruence|]. reflexivity.
Qed.

Lemma existsb_dot_digits : forall neg ds, all_digits ds ->
  existsb (fun c => ceq c "."%char) (sign_str neg ++ ds) = false.
Proof.
  intros neg ds H. rewrite existsb_app. apply orb_false_intro.
  - destruct neg; reflexivity.
  - induction ds as [|c ds IH]; [reflexivity|]. cbn.
    rewrite (is_digit_not_dot c) by (apply H; left; reflexivity).
    apply IH. intros d Hd. apply H. right. exact Hd.
Qed.

Lemma existsb_dot : forall p q, existsb (fun c => ceq c "."%char) (p ++ "."%char :: q) = true.
Proof.
  intros. rewrite existsb_app. cbn. rewrite orb_true_r. reflexivity.
Qed.

Lemma num_chars_int : forall neg ds, all_digits ds ->
  forall c, In c (sign_str neg ++ ds) -> is_num_char c = true.
Proof.
  intros neg ds H c Hc. apply in_app_or in Hc as [Hc|Hc].
  - exact (sign_num_chars neg c Hc).
  - apply is_digit_num, H, Hc.
Qed.

Lemma num_chars_dec : forall neg ip fp, all_digits ip -> all_digits fp ->
  forall c, In c (sign_str neg ++ ip ++ "."%char :: fp) -> is_num_char c = true.
Proof.
  intros neg ip fp Hi Hf c Hc. apply in_app_or in Hc as [Hc|Hc].
  - exact (sign_num_chars neg c Hc).
  - apply in_app_or in Hc as [Hc|[<-|Hc]].
    + apply is_digit_num, Hi, Hc.
    + reflexivity.
    + apply is_digit_num, Hf, Hc.
Qed.

(** Every double the model builds is valid or not a number, so that multiplying
    by one gives it back. *)
Lemma dbl_one_eq : dbl_pow10 0 = S754_finite false 4503599627370496 (-52).
Proof. reflexivity. Qed.

Lemma app_split : forall (a b0 c d : bytes) x, (a ++ b0 ++ x :: c) ++ d = (a ++ b0) ++ x :: c ++ d.
Proof. intros. rewrite <- !app_assoc. reflexivity. Qed.
