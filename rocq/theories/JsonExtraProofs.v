(** Further facts about JSON values: map laws, invariants of loaded values,
    exactness, and numbers that cannot be loaded back. *)
From Coq Require Import List Ascii String ZArith Bool Lia Reals Lra.
From Coq Require Import Floats.SpecFloat.
From Flocq Require Import Core BinarySingleNaN.
From Verif Require Import Base Dbl DigitsProofs DblProofs Json JsonSpec JsonProofs JsonNumProofs JsonExpProofs
  JsonRtProofs.
Import ListNotations.
Local Open Scope Z_scope.

(** ** Map laws *)

Lemma obj_get_set_same : forall k v l, obj_get k (obj_set k v l) = Some v.
Proof.
  induction l as [|[k' v'] l IH]; cbn; [rewrite bytes_eqb_refl; reflexivity|].
  destruct (bytes_eqb k k') eqn:E; cbn.
  - rewrite bytes_eqb_refl. reflexivity.
  - destruct (bytes_ltb k k') eqn:E2; cbn; [rewrite bytes_eqb_refl; reflexivity|].
    rewrite E. exact IH.
Qed.

Lemma obj_get_set_other : forall k k' v l, k <> k' -> obj_get k' (obj_set k v l) = obj_get k' l.
Proof.
  intros k k' v l Hne.
  assert (E0 : bytes_eqb k' k = false).
  { destruct (bytes_eqb k' k) eqn:E; [|reflexivity]. apply bytes_eqb_eq in E. congruence. }
  induction l as [|[k0 v0] l IH]; cbn; [rewrite E0; reflexivity|].
  destruct (bytes_eqb k k0) eqn:E; cbn.
  - apply bytes_eqb_eq in E. subst k0. rewrite E0. reflexivity.
  - destruct (bytes_ltb k k0); cbn; [rewrite E0; reflexivity|]. rewrite IH. reflexivity.
Qed.

Lemma obj_set_keys : forall k v l x, In x (map fst (obj_set k v l)) ->
  x = k \/ In x (map fst l).
Proof.
  induction l as [|[k0 v0] l IH]; cbn; intros x H; [destruct H as [<-|[]]; auto|].
  destruct (bytes_eqb k k0) eqn:E; cbn in H.
  - destruct H as [<-|H]; auto.
  - destruct (bytes_ltb k k0); cbn in H.
    + destruct H as [<-|[<-|H]]; auto.
    + destruct H as [<-|H]; auto. destruct (IH x H); auto.
Qed.

Lemma obj_set_sorted : forall k v l, sorted_keys (map fst l) ->
  sorted_keys (map fst (obj_set k v l)).
Proof.
  induction l as [|[k0 v0] l IH]; cbn; intros H; [constructor; [intros k' []|constructor]|].
  inversion H as [|? ? Hlt Hs]; subst.
  destruct (bytes_eqb k k0) eqn:E; cbn.
  - apply bytes_eqb_eq in E. subst k0. constructor; assumption.
  - destruct (bytes_ltb k k0) eqn:E2; cbn.
    + constructor; [|exact H]. intros k' [<-|Hk']; [exact E2|].
      apply (bytes_ltb_trans _ k0); [exact E2|apply Hlt; exact Hk'].
    + constructor; [|apply IH; exact Hs]. intros k' Hk'.
      apply obj_set_keys in Hk' as [->|Hk']; [|apply Hlt; exact Hk'].
      destruct (bytes_ltb k0 k) eqn:E3; [reflexivity|].
      pose proof (bytes_ltb_total _ _ E2 E3). subst k0. rewrite bytes_eqb_refl in E. discriminate.
Qed.

Lemma obj_set_forall : forall (P : bytes * json -> Prop) k v l,
  P (k, v) -> Forall P l -> Forall P (obj_set k v l).
Proof.
  intros P k v l Hp. induction 1 as [|[k0 v0] l H0 Hl IH]; cbn; [constructor; auto|].
  destruct (bytes_eqb k k0); [constructor; auto|].
  destruct (bytes_ltb k k0); constructor; auto.
Qed.

(** ** Well-formed values: what a marley::JSON object in memory always is *)

Lemma stol_long : forall s z, stol s = Ok z -> is_long z.
Proof.
  intros s z H. unfold stol in H. destruct (take_minus s) as [neg r].
  destruct (span_digits r) as [[|d ds] t]; [discriminate|].
  destruct (_ || _) eqn:E; [discriminate|]. injection H as <-.
  unfold is_long. lia.
Qed.

Lemma stod_valid : forall s x, stod s = Ok x -> valid_dbl x = true.
Proof.
  intros s x H. unfold stod in H. destruct (take_minus s) as [neg r].
  destruct (span_digits r) as [ip r1]. destruct (ip ++ _); [discriminate|].
  exact (strtod_val_valid _ _ _ _ H).
Qed.

Lemma dbl_mul_valid : forall x y, valid_dbl (dbl_mul x y) = true.
Proof.
  intros x y. destruct x as [s|s| |s m e], y as [t|t| |t m' e']; try reflexivity.
  cbn [dbl_mul]. apply rnd64_valid. pose proof (dden_pos e). pose proof (dden_pos e'). nia.
Qed.

Lemma parse_number_wf : forall s j r, parse_number s = Ok (j, r) -> wf_json j.
Proof.
  intros s j r H. unfold parse_number in H. destruct (span_num s) as [v t].
  destruct t as [|c t']; [discriminate|].
  destruct (ceq c "E"%char || ceq c "e"%char).
  - destruct (take_minus t') as [neg r1]. destruct (span_digits r1) as [ds t].
    destruct (delim_next t); [|discriminate].
    destruct (stol _); cbn [bind] in H; [|discriminate].
    destruct (if existsb _ _ then _ else _); cbn [bind] in H; [|discriminate].
    injection H as <- <-. constructor. apply dbl_mul_valid.
  - destruct (is_delim c); [|discriminate]. destruct (existsb _ _).
    + destruct (stod v); cbn [bind] in H; [|discriminate]. injection H as <- <-.
      constructor. apply dbl_mul_valid.
    + destruct (stol v) eqn:E; cbn [bind] in H; [|discriminate]. injection H as <- <-.
      constructor. exact (stol_long _ _ E).
Qed.

Lemma parse_wf : forall f,
  (forall s j r, parse_next f s = Ok (j, r) -> wf_json j) /\
  (forall acc s j r, Forall wf_json acc -> parse_arr f acc s = Ok (j, r) -> wf_json j) /\
  (forall acc s j r, sorted_keys (map fst acc) -> Forall (fun p => wf_json (snd p)) acc ->
     parse_obj f acc s = Ok (j, r) -> wf_json j).
Proof.
  induction f as [|f (IHn & IHa & IHo)]; [repeat split; intros; discriminate|].
  repeat split.
  - intros s j r H. cbn [parse_next] in H.
    destruct (next_char s) as [[[c|] r0]|]; cbn [bind] in H; try discriminate.
    destruct (ceq c "["%char); [apply IHa in H; [exact H|constructor]|].
    destruct (ceq c "{"%char); [apply IHo in H; [exact H|constructor|constructor]|].
    destruct (ceq c dquote).
    { destruct (parse_string r0 []) as [[v r']|]; [|discriminate]. injection H as <- <-. constructor. }
    unfold parse_lit in H.
    destruct (ceq c "t"%char).
    { destruct (expect _ r0); [|discriminate]. injection H as <- <-. constructor. }
    destruct (ceq c "f"%char).
    { destruct (expect _ r0); [|discriminate]. injection H as <- <-. constructor. }
    destruct (ceq c "n"%char).
    { destruct (expect _ r0); [|discriminate]. injection H as <- <-. constructor. }
    destruct (is_digit c || ceq c "-"%char); [|discriminate].
    exact (parse_number_wf _ _ _ H).
  - intros acc s j r Hacc H. cbn [parse_arr] in H.
    destruct (consume_ws s) as [[|c r0]|]; cbn [bind] in H; try discriminate.
    destruct (ceq c "]"%char).
    { injection H as <- <-. constructor. apply Forall_rev. exact Hacc. }
    destruct (parse_next f (c :: r0)) as [[v s2]|] eqn:En; [|discriminate]. cbn [bind] in H.
    apply IHn in En.
    destruct (next_char s2) as [[[c2|] s3]|]; cbn [bind] in H; try discriminate.
    destruct (ceq c2 ","%char); [apply IHa in H; [exact H|constructor; assumption]|].
    destruct (ceq c2 "]"%char); [|discriminate]. injection H as <- <-.
    constructor. change (rev acc ++ [v]) with (rev (v :: acc)). apply Forall_rev.
    constructor; assumption.
  - intros acc s j r Hs Hacc H. cbn [parse_obj] in H.
    destruct (consume_ws s) as [[|c r0]|]; cbn [bind] in H; try discriminate.
    destruct (ceq c "}"%char).
    { injection H as <- <-. constructor; assumption. }
    destruct (if ceq c dquote then _ else _) as [[k s2]|]; cbn [bind] in H; [|discriminate].
    destruct (next_char s2) as [[[c2|] s3]|]; cbn [bind] in H; try discriminate.
    destruct (ceq c2 ":"%char); [|discriminate].
    destruct (consume_ws s3) as [s4|]; cbn [bind] in H; [|discriminate].
    destruct (parse_next f s4) as [[v s5]|] eqn:En; [|discriminate]. cbn [bind] in H.
    apply IHn in En.
    assert (Hs' : sorted_keys (map fst (obj_set (escape k) v acc))) by (apply obj_set_sorted; exact Hs).
    assert (Ha' : Forall (fun p => wf_json (snd p)) (obj_set (escape k) v acc))
      by (apply obj_set_forall; [exact En|exact Hacc]).
    destruct (next_char s5) as [[[c6|] s6]|]; cbn [bind] in H; try discriminate.
    destruct (ceq c6 ","%char); [apply IHo in H; assumption|].
    destruct (ceq c6 "}"%char); [|discriminate]. injection H as <- <-.
    constructor; assumption.
Qed.

Lemma load_wf : forall s j, load s = Ok j -> wf_json j.
Proof.
  intros s j H. unfold load, load_rest in H.
  destruct (next_char s) as [[[c|] r0]|]; cbn [bind] in H; try discriminate.
  destruct (ceq c "{"%char); [|discriminate].
  destruct (parse_next _ _) as [[v r]|] eqn:E; [|discriminate]. injection H as <-.
  apply (proj1 (parse_wf _)) in E. exact E.
Qed.

(** A loaded value is an object. *)
Lemma parse_obj_is_obj : forall f acc s j r, parse_obj f acc s = Ok (j, r) -> exists l, j = JObj l.
Proof.
  induction f as [|f IH]; intros acc s j r H; [discriminate|]. cbn [parse_obj] in H.
  destruct (consume_ws s) as [[|c r0]|]; cbn [bind] in H; try discriminate.
  destruct (ceq c "}"%char); [injection H as <- <-; eexists; reflexivity|].
  destruct (if ceq c dquote then _ else _) as [[k s2]|]; cbn [bind] in H; [|discriminate].
  destruct (next_char s2) as [[[c2|] s3]|]; cbn [bind] in H; try discriminate.
  destruct (ceq c2 ":"%char); [|discriminate].
  destruct (consume_ws s3) as [s4|]; cbn [bind] in H; [|discriminate].
  destruct (parse_next f s4) as [[v s5]|]; [|discriminate]. cbn [bind] in H.
  destruct (next_char s5) as [[[c6|] s6]|]; cbn [bind] in H; try discriminate.
  destruct (ceq c6 ","%char); [exact (IH _ _ _ _ H)|].
  destruct (ceq c6 "}"%char); [|discriminate]. injection H as <- <-. eexists. reflexivity.
Qed.

Lemma load_is_obj : forall s j, load s = Ok j -> exists l, j = JObj l.
Proof.
  intros s j H. unfold load, load_rest in H.
  destruct (next_char_ok s) as (c & r0 & E & Hc). rewrite E in H. cbn [bind] in H.
  destruct c as [c|]; [|discriminate].
  destruct (ceq c "{"%char) eqn:Ec; [|discriminate]. apply ceq_true in Ec. subst c.
  replace (2 * List.length s + 3)%nat with (S (2 * List.length s + 2)) in H by lia.
  cbn [parse_next] in H. rewrite next_char_plain in H by (reflexivity || discriminate).
  cbn [bind] in H. change (ceq "{"%char "["%char) with false in H. rewrite ceq_refl in H.
  destruct (parse_obj _ _ _) as [[v r]|] eqn:Eo; [|discriminate]. injection H as <-.
  exact (parse_obj_is_obj _ _ _ _ _ Eo).
Qed.

(** ** Exactness without floating-point numbers *)

Lemma same_value_exact : forall j j', no_float j -> same_value j j' -> j = j'.
Proof.
  induction j using json_ind2; intros j' Hn Hs; inversion Hs; subst; try reflexivity;
    try (inversion Hn; fail).
  - f_equal. inversion Hn as [| | | |? Hl|]; subst. clear Hs Hn.
    revert l' H1. induction H as [|v l Hv Hl' IH]; intros l' HF; inversion HF; subst; [reflexivity|].
    inversion Hl; subst. f_equal; auto.
  - f_equal. inversion Hn as [| | | | |? Hl]; subst. clear Hs Hn.
    revert l' H1. induction H as [|[k v] l Hv Hl' IH]; intros l' HF; inversion HF as [|? [k' v'] ? ? [Hk Hsv] HF']; subst;
      [reflexivity|].
    inversion Hl; subst. cbn in *. subst k'. f_equal; [f_equal; auto|auto].
Qed.

(** ** Numbers that cannot be loaded back *)

Lemma large_exp : forall m e, 10 ^ 17 * dden e <= dnum m e ->
  17 <= snd (to_dec 17 (dnum m e) (dden e)).
Proof.
  intros m e H. pose proof (dnum_pos m e) as Hn. pose proof (dden_pos e) as Hd.
  destruct (flog10_spec (dnum m e) (dden e) Hn Hd) as [F1 F2].
  assert (L2 : (bpow radix10 17 <= Qr (dnum m e) (dden e))%R).
  { replace (bpow radix10 17) with (Qr (10 ^ 17) 1)
      by (unfold Qr, Rdiv; rewrite Rinv_1, Rmult_1_r; reflexivity).
    apply Qr_le; lia. }
  assert (K2 : 17 < flog10 (dnum m e) (dden e) + 1) by (apply (lt_bpow radix10); lra).
  unfold to_dec. destruct (_ =? 10 ^ 17); cbn [snd]; lia.
Qed.

(** The text of such a number is an error for parse_next, whatever follows. *)
Lemma too_large_text : forall x rest f, too_large x ->
  parse_next (S f) (show_g17 x ++ rest) = Er MarleyErr.
Proof.
  intros x rest f H. destruct x as [s|s| |s m e]; cbn [too_large] in H; try contradiction.
  - destruct s; reflexivity.
  - reflexivity.
  - cbn [show_g17].
    pose proof (large_exp m e H) as HX.
    pose proof (to_dec_spec 17 (dnum m e) (dden e) ltac:(lia) (dnum_pos m e) (dden_pos e)) as HS.
    destruct (to_dec 17 (dnum m e) (dden e)) as [D X]. cbn [snd] in HX. destruct HS as [[HD1 HD2] _].
    replace ((X <? -4) || (17 <=? X)) with true by lia.
    pose proof (digits_all D ltac:(lia)) as HA.
    destruct (digits_hd_digit D ltac:(lia)) as (c & r & Ed & Hc). rewrite Ed in *.
    cbn [firstn skipn]. cbn [forallb] in HA. apply andb_prop in HA as [_ HA].
    pose proof (strip0_digits r HA) as HA0. set (fp := strip0 r) in *.
    unfold show_exp. replace (X <? 0) with false by lia.
    set (tail := if Z.abs X <? 10 then _ else _).
    assert (Hnum : forall c0, In c0 (sign_str s ++ [c] ++ frac_str fp) -> is_num_char c0 = true).
    { intros c0 Hc0. apply in_app_or in Hc0 as [Hc0|[<-|Hc0]].
      - exact (sign_num_chars s c0 Hc0).
      - apply is_digit_num. exact Hc.
      - destruct fp as [|d fp']; [destruct Hc0|]. destruct Hc0 as [<-|Hc0]; [reflexivity|].
        apply is_digit_num. revert c0 Hc0. apply forallb_forall. exact HA0. }
    assert (HP : parse_number ((sign_str s ++ [c] ++ frac_str fp) ++ "e"%char :: ("+"%char :: tail) ++ rest)
                 = Er MarleyErr).
    { unfold parse_number. rewrite span_num_app; [|exact Hnum|reflexivity]. reflexivity. }
    replace ((sign_str s ++ [c] ++ frac_str fp ++ "e"%char :: "+"%char :: tail) ++ rest)
      with ((sign_str s ++ [c] ++ frac_str fp) ++ "e"%char :: ("+"%char :: tail) ++ rest)
      by (repeat (rewrite <- !app_assoc; cbn [app]); reflexivity).
    assert (Hh : exists h u, (sign_str s ++ [c] ++ frac_str fp) ++ "e"%char :: ("+"%char :: tail) ++ rest = h :: u
                 /\ (is_digit h = true \/ h = "-"%char)).
    { destruct s; cbn [sign_str app]; eexists; eexists; (split; [reflexivity|]); auto. }
    destruct Hh as (h & u & Eh & Hh). rewrite Eh in *.
    destruct (is_digit_props h Hh) as (H1 & H2 & H3 & H4 & H5 & H6 & H7 & H8 & H9 & H10).
    cbn [parse_next]. rewrite next_char_plain by assumption. cbn [bind].
    rewrite !ceq_neq by assumption. rewrite H10. exact HP.
Qed.

Lemma show_g17_head : forall x, too_large x ->
  exists c r, show_g17 x = c :: r /\ is_space c = false /\ c <> "/"%char.
Proof.
  intros x H. destruct x as [s|s| |s m e]; cbn [too_large] in H; try contradiction.
  - destruct s; eexists; eexists; (split; [reflexivity|split; [reflexivity|discriminate]]).
  - eexists; eexists; (split; [reflexivity|split; [reflexivity|discriminate]]).
  - cbn [show_g17]. pose proof (large_exp m e H) as HX.
    pose proof (to_dec_spec 17 (dnum m e) (dden e) ltac:(lia) (dnum_pos m e) (dden_pos e)) as HS.
    destruct (to_dec 17 (dnum m e) (dden e)) as [D X]. cbn [snd] in HX. destruct HS as [[HD1 HD2] _].
    replace ((X <? -4) || (17 <=? X)) with true by lia.
    destruct (digits_hd_digit D ltac:(lia)) as (c & r & Ed & Hc). rewrite Ed.
    destruct (is_digit_props c (or_introl Hc)) as (H1 & H2 & _).
    destruct s; cbn [sign_str firstn app].
    + eexists; eexists. split; [reflexivity|]. split; [reflexivity|discriminate].
    + eexists; eexists. split; [reflexivity|]. split; assumption.
Qed.

Lemma too_large_rejected : forall indent k x, too_large x ->
  load (dump indent (JObj [(k, JFlt x)])) = Er MarleyErr.
Proof.
  intros indent k x Hx.
  assert (G : forall step pretty, load (print step pretty 0 (JObj [(k, JFlt x)])) = Er MarleyErr).
  { intros step pretty. rewrite print_obj. cbn [members].
    change (print step pretty (deeper step pretty 0) (JFlt x)) with (show_g17 x).
    destruct (colon_split pretty) as (w1 & w2 & Hw1 & Hs1 & Hw2 & Ecol). rewrite Ecol.
    set (ind := deeper step pretty 0). rewrite app_nil_r. cbn [app spaces repeat].
    set (tl := pnl pretty ++ ["}"%char]).
    replace ("{"%char :: pnl pretty ++ (spaces ind ++ quoted k ++ (w1 ++ ":"%char :: w2) ++ show_g17 x) ++ tl)
      with ("{"%char :: (pnl pretty ++ spaces ind) ++ (quoted k ++ w1 ++ ":"%char :: (w2 ++ show_g17 x ++ tl)))
      by (repeat (rewrite <- !app_assoc; cbn [app]); reflexivity).
    unfold load, load_rest. rewrite next_char_plain by (reflexivity || discriminate).
    cbn [bind]. rewrite ceq_refl.
    set (txt := (pnl pretty ++ spaces ind) ++ _).
    replace (2 * List.length ("{"%char :: txt) + 3)%nat with (S (S (S (2 * List.length txt + 2))))
      by (cbn [List.length]; lia).
    set (n := (2 * List.length txt + 2)%nat).
    cbn [parse_next]. rewrite next_char_plain by (reflexivity || discriminate). cbn [bind].
    change (ceq "{"%char "["%char) with false. rewrite ceq_refl.
    assert (Hkt : key_text k (quoted k) w1).
    { unfold quoted. apply kt_quoted; [apply escape_text|exact Hw1]. }
    destruct (key_parse k (quoted k) w1 (w2 ++ show_g17 x ++ tl) Hkt)
      as (c & r & Er0 & Hc1 & Hc2 & Hc3 & s2 & Ek & En).
    unfold txt. rewrite Er0. fold parse_next.
    replace (parse_obj (S (S n)) [] ((pnl pretty ++ spaces ind) ++ c :: r)) with (@Er (json * bytes) MarleyErr);
      [reflexivity|].
    remember (S n) as n1 eqn:En1. cbn [parse_obj].
    rewrite consume_ws_plain; [|apply ws_app; [apply ws_pnl|apply ws_spaces]|exact Hc1|exact Hc2].
    cbn [bind]. rewrite Hc3, Ek. cbn [bind]. rewrite En. cbn [bind]. rewrite ceq_refl.
    destruct (show_g17_head x Hx) as (h & u & Eh & Hh1 & Hh2).
    pose proof (too_large_text x tl n Hx) as HT. rewrite <- En1 in HT. rewrite Eh in *. cbn [app] in *.
    rewrite consume_ws_plain by assumption. cbn [bind]. rewrite HT. reflexivity. }
  destruct indent as [n|]; apply G.
Qed.

(** ** Round trips *)

Lemma dump_load_exact : forall indent l, storable (JObj l) -> no_float (JObj l) ->
  load (dump indent (JObj l)) = Ok (JObj l).
Proof.
  intros indent l Hs Hn. destruct (dump_load indent l Hs) as (j & H1 & H2).
  rewrite H1. f_equal. symmetry. apply same_value_exact; assumption.
Qed.

Lemma dump_load_near : forall indent l, all_floats normal_dbl (JObj l) ->
  exists j', load (dump indent (JObj l)) = Ok j' /\ rel_value near_num (JObj l) j'.
Proof.
  intros indent l Hs. destruct (dump_load_rest_gen _ _ show_g17_near indent l Hs) as (j' & H1 & H2).
  exists j'. split; [|exact H2]. unfold load. rewrite H1. reflexivity.
Qed.

Lemma dump_load_rest_some : forall indent l, all_floats small_dbl (JObj l) ->
  exists j', load_rest (dump indent (JObj l)) = Ok (j', []) /\ rel_value some_num (JObj l) j'.
Proof. exact (dump_load_rest_gen _ _ show_g17_some). Qed.

Lemma dump_load_some : forall indent l, all_floats small_dbl (JObj l) ->
  exists j', load (dump indent (JObj l)) = Ok j' /\ rel_value some_num (JObj l) j'.
Proof.
  intros indent l Hs. destruct (dump_load_rest_some indent l Hs) as (j' & H1 & H2).
  exists j'. split; [|exact H2]. unfold load. rewrite H1. reflexivity.
Qed.

Lemma dump_truncated : forall indent l, all_floats small_dbl (JObj l) ->
  forall p q, dump indent (JObj l) = p ++ q -> q <> [] -> forall w, load p <> Ok w.
Proof.
  intros indent l Hs p q E Hq. destruct (dump_load_rest_some indent l Hs) as (j' & H1 & H2).
  exact (load_prefix_rejected _ _ p q H1 E Hq).
Qed.

Lemma single_storable : forall (P : spec_float -> Prop) k j, plain_key k -> all_floats P j ->
  all_floats P (JObj [(k, j)]).
Proof.
  intros P k j Hk Hj. apply st_obj; [|constructor; auto|constructor; auto].
  cbn. constructor; [intros k' []|constructor].
Qed.

Lemma string_roundtrip : forall indent k s, plain_key k ->
  load (dump indent (JObj [(k, JStr s)])) = Ok (JObj [(k, JStr s)]).
Proof.
  intros indent k s Hk. apply dump_load_exact.
  - apply single_storable; [exact Hk|constructor].
  - apply nf_obj. constructor; constructor.
Qed.

Lemma number_roundtrip_gen : forall (P : spec_float -> Prop) (R : spec_float -> json -> Prop),
  (forall x, P x -> exists j, num_text j (show_g17 x) /\ R x j) ->
  forall indent k x, plain_key k -> P x ->
  exists j, load (dump indent (JObj [(k, JFlt x)])) = Ok (JObj [(k, j)]) /\ R x j.
Proof.
  intros P R HPR indent k x Hk Hx.
  destruct (dump_load_rest_gen P R HPR indent [(k, JFlt x)]) as (j' & H1 & H2).
  { apply single_storable; [exact Hk|constructor; exact Hx]. }
  inversion H2 as [| | | | | |? ? HF]; subst.
  inversion HF as [|? [k' j] ? ? [Hk' Hj] HF']; subst. inversion HF'; subst.
  cbn [fst snd] in Hk', Hj. subst k'. inversion Hj; subst.
  exists j. split; [|assumption]. unfold load. rewrite H1. reflexivity.
Qed.

Lemma number_roundtrip : forall indent k x, plain_key k -> fixed_dbl x ->
  exists j y, load (dump indent (JObj [(k, JFlt x)])) = Ok (JObj [(k, j)]) /\
    to_double j = (y, true) /\ same_dbl x y.
Proof.
  intros indent k x Hk Hx.
  destruct (number_roundtrip_gen _ _ show_g17_text indent k x Hk Hx) as (j & H1 & H2).
  destruct j as [| |z|y| | |]; try contradiction.
  - exists (JInt z), (dbl_of_int z). auto.
  - exists (JFlt y), y. auto.
Qed.

Lemma number_roundtrip_near : forall indent k x, plain_key k -> normal_dbl x ->
  exists j y, load (dump indent (JObj [(k, JFlt x)])) = Ok (JObj [(k, j)]) /\
    to_double j = (y, true) /\ near_dbl x y.
Proof.
  intros indent k x Hk Hx.
  destruct (number_roundtrip_gen _ _ show_g17_near indent k x Hk Hx) as (j & H1 & H2).
  destruct j as [| |z|y| | |]; try contradiction.
  - exists (JInt z), (dbl_of_int z). auto.
  - exists (JFlt y), y. auto.
Qed.

Lemma int_roundtrip : forall indent k z, plain_key k -> is_long z ->
  load (dump indent (JObj [(k, JInt z)])) = Ok (JObj [(k, JInt z)]).
Proof.
  intros indent k z Hk Hz. apply dump_load_exact.
  - apply single_storable; [exact Hk|constructor; exact Hz].
  - apply nf_obj. constructor; constructor.
Qed.

(** ** Which errors loading can report *)

Definition thrown (e : err) : Prop := e = MarleyErr \/ e = StdInvalid \/ e = StdRange.
Definition soft {A} (r : res A) : Prop :=
  match r with Ok _ => True | Er e => thrown e \/ e = NoFuel end.

Lemma soft_bind : forall A B (r : res A) (f : A -> res B), soft r ->
  (forall a, soft (f a)) -> soft (bind r f).
Proof. intros A B [a|e] f H1 H2; cbn; [apply H2|exact H1]. Qed.

Ltac softs := match goal with
  | |- soft (Ok _) => exact I
  | |- soft (Er MarleyErr) => left; left; reflexivity
  | |- soft (Er StdInvalid) => left; right; left; reflexivity
  | |- soft (Er StdRange) => left; right; right; reflexivity
  | |- soft (Er NoFuel) => right; reflexivity
  end.

Lemma next_char_soft : forall s, soft (next_char s).
Proof. intros s. destruct (next_char_ok s) as (c & r & E & _). rewrite E. exact I. Qed.

Lemma consume_ws_soft : forall s, soft (consume_ws s).
Proof.
  intros s. unfold consume_ws. apply soft_bind; [apply next_char_soft|]. intros [[c|] r]; exact I.
Qed.

Lemma parse_string_soft : forall n s acc, (List.length s <= n)%nat -> soft (parse_string s acc).
Proof.
  induction n as [|n IH]; intros s acc Hl.
  - destruct s; [|cbn in Hl; lia]. cbn. exact I.
  - destruct s as [|c s]; [exact I|]. cbn [List.length] in Hl. cbn [parse_string].
    destruct (ceq c dquote); [softs|].
    destruct (ceq c bslash); [|apply IH; lia].
    destruct s as [|d s]; [softs|]. cbn [List.length] in Hl.
    destruct (ceq d dquote); [apply IH; lia|].
    destruct (ceq d bslash); [apply IH; lia|].
    destruct (ceq d "/"%char); [apply IH; lia|].
    destruct (ceq d "b"%char); [apply IH; lia|].
    destruct (ceq d "f"%char); [apply IH; lia|].
    destruct (ceq d "n"%char); [apply IH; lia|].
    destruct (ceq d "r"%char); [apply IH; lia|].
    destruct (ceq d "t"%char); [apply IH; lia|].
    destruct (ceq d "u"%char); [|apply IH; lia].
    destruct s as [|h1 [|h2 [|h3 [|h4 s]]]]; try softs. cbn [List.length] in Hl.
    destruct (_ && _); [apply IH; lia|softs].
Qed.

Lemma stol_soft : forall s, soft (stol s).
Proof.
  intros s. unfold stol. destruct (take_minus s) as [neg r]. destruct (span_digits r) as [[|d ds] t]; [softs|].
  destruct (_ || _); softs.
Qed.

Lemma stod_soft : forall s, soft (stod s).
Proof.
  intros s. unfold stod. destruct (take_minus s) as [neg r]. destruct (span_digits r) as [ip r1].
  destruct (ip ++ _); [softs|]. unfold strtod_val. destruct (rnd64 _ _ _); try softs.
  - destruct (_ =? 0); softs.
  - destruct (_ && _); softs.
Qed.

Lemma parse_number_soft : forall s, soft (parse_number s).
Proof.
  intros s. unfold parse_number. destruct (span_num s) as [v t]. destruct t as [|c t']; [softs|].
  destruct (ceq c "E"%char || ceq c "e"%char).
  - destruct (take_minus t') as [neg r1]. destruct (span_digits r1) as [ds t].
    destruct (delim_next t); [|softs].
    apply soft_bind; [apply stol_soft|]. intros z. apply soft_bind; [|intros; softs].
    destruct (existsb _ _); [apply stod_soft|]. apply soft_bind; [apply stol_soft|intros; softs].
  - destruct (is_delim c); [|softs]. destruct (existsb _ _).
    + apply soft_bind; [apply stod_soft|intros; softs].
    + apply soft_bind; [apply stol_soft|intros; softs].
Qed.

Lemma parse_soft : forall f,
  (forall s, soft (parse_next f s)) /\ (forall acc s, soft (parse_arr f acc s)) /\
  (forall acc s, soft (parse_obj f acc s)).
Proof.
  induction f as [|f (IHn & IHa & IHo)]; [repeat split; intros; right; reflexivity|]. repeat split.
  - intros s. cbn [parse_next]. apply soft_bind; [apply next_char_soft|]. intros [[c|] r]; [|softs].
    destruct (ceq c "["%char); [apply IHa|]. destruct (ceq c "{"%char); [apply IHo|].
    destruct (ceq c dquote); [apply soft_bind; [apply (parse_string_soft _ _ _ (le_n _))|intros [v r']; softs]|].
    unfold parse_lit.
    destruct (ceq c "t"%char); [destruct (expect _ r); softs|].
    destruct (ceq c "f"%char); [destruct (expect _ r); softs|].
    destruct (ceq c "n"%char); [destruct (expect _ r); softs|].
    destruct (is_digit c || ceq c "-"%char); [apply parse_number_soft|softs].
  - intros acc s. cbn [parse_arr]. apply soft_bind; [apply consume_ws_soft|]. intros [|c r]; [softs|].
    destruct (ceq c "]"%char); [softs|]. apply soft_bind; [apply IHn|]. intros [v s2].
    apply soft_bind; [apply next_char_soft|]. intros [[c2|] s3]; [|softs].
    destruct (ceq c2 ","%char); [apply IHa|]. destruct (ceq c2 "]"%char); softs.
  - intros acc s. cbn [parse_obj]. apply soft_bind; [apply consume_ws_soft|]. intros [|c r]; [softs|].
    destruct (ceq c "}"%char); [softs|]. apply soft_bind.
    { destruct (ceq c dquote); [apply (parse_string_soft _ _ _ (le_n _))|softs]. }
    intros [k s2]. apply soft_bind; [apply next_char_soft|]. intros [[c2|] s3]; [|softs].
    destruct (ceq c2 ":"%char); [|softs]. apply soft_bind; [apply consume_ws_soft|]. intros s4.
    apply soft_bind; [apply IHn|]. intros [v s5]. apply soft_bind; [apply next_char_soft|].
    intros [[c6|] s6]; [|softs]. destruct (ceq c6 ","%char); [apply IHo|].
    destruct (ceq c6 "}"%char); softs.
Qed.

Lemma load_outcome : forall s, (exists l, load s = Ok (JObj l)) \/
  load s = Er MarleyErr \/ load s = Er StdInvalid \/ load s = Er StdRange.
Proof.
  intros s. destruct (load s) as [j|e] eqn:E.
  - left. destruct (load_is_obj s j E) as (l & ->). exists l. reflexivity.
  - right. pose proof (load_nofuel s) as Hn. rewrite E in Hn.
    assert (Hs : soft (load s)).
    { unfold load. apply soft_bind; [|intros [j r]; softs]. unfold load_rest.
      apply soft_bind; [apply next_char_soft|]. intros [[c|] r]; [|softs].
      destruct (ceq c "{"%char); [apply (proj1 (parse_soft _))|softs]. }
    rewrite E in Hs. destruct Hs as [[->|[->| ->]]| ->]; auto. congruence.
Qed.

(** More recursion depth than the model supplies makes no difference. *)
Lemma parse_fuel_enough : forall f s, (2 * List.length s + 1 <= f)%nat ->
  parse_next f s = parse_next (2 * List.length s + 1) s /\ parse_next f s <> Er NoFuel.
Proof.
  intros f s Hf. assert (H1 : parse_next f s <> Er NoFuel) by (apply (proj1 (parse_nofuel f)); exact Hf).
  split; [|exact H1]. apply parse_next_agree; [exact H1|].
  apply (proj1 (parse_nofuel _)). lia.
Qed.

Lemma to_string_plain : forall s, plain_key s -> to_string (JStr s) = s.
Proof. intros s H. apply plain_escape. exact H. Qed.

(** ** Deciding the side conditions, for concrete documents *)

Definition plain_keyb (k : bytes) : bool :=
  forallb (fun c => negb (existsb (Z.eqb (code c)) [34; 92; 8; 12; 10; 13; 9])) k.

Lemma plain_keyb_ok : forall k, plain_keyb k = true -> plain_key k.
Proof.
  intros k Hk c Hc He. unfold plain_keyb in Hk. rewrite forallb_forall in Hk. specialize (Hk c Hc).
  apply negb_true_iff in Hk.
  assert (existsb (Z.eqb (code c)) [34; 92; 8; 12; 10; 13; 9] = true); [|congruence].
  apply existsb_exists. exists (code c). split; [exact He|apply Z.eqb_refl].
Qed.

Fixpoint sorted_keysb (l : list bytes) : bool :=
  match l with
  | [] => true
  | k :: r => forallb (bytes_ltb k) r && sorted_keysb r
  end.

Lemma sorted_keysb_ok : forall l, sorted_keysb l = true -> sorted_keys l.
Proof.
  induction l as [|k l IH]; cbn [sorted_keysb]; intros H; [constructor|].
  apply andb_prop in H as [H1 H2]. constructor; [|apply IH; exact H2].
  rewrite forallb_forall in H1. exact H1.
Qed.

Ltac storable_tac :=
  repeat first
    [ apply st_null | apply st_bool | apply st_str
    | apply st_int; split; vm_compute; congruence
    | apply st_flt; vm_compute; repeat split; congruence
    | apply st_arr; repeat apply Forall_cons; try apply Forall_nil
    | apply st_obj;
      [apply sorted_keysb_ok; vm_compute; reflexivity
      |repeat constructor; apply plain_keyb_ok; vm_compute; reflexivity
      |repeat apply Forall_cons; try apply Forall_nil; cbn [snd]] ].
