(** Proofs about the marley executable. *)
From Coq Require Import List Ascii String ZArith Bool Lia.
From Coq Require Import Floats.SpecFloat.
From Verif Require Import Base Dbl DigitsProofs DblProofs Json JsonSpec JsonRtProofs Stream Strings Pdg Event EventSpec
  Output OutputSpec OutputProofs OutputLoopProofs OutputRunProofs Main MainSpec.
Import ListNotations.
Local Open Scope Z_scope.

(** ** Numbers *)

Lemma small_int_value : forall n, 0 < n -> n < 2 ^ 53 -> forall s, exists m e,
  rnd64 s n 1 = S754_finite s m e /\ dnum m e / dden e = n.
Proof.
  intros n Hn Hlt s. set (k := 52 - Z.log2 n).
  assert (Hl : Z.log2 n <= 52) by (apply Z.log2_lt_pow2 in Hlt; lia).
  assert (Hl0 : 0 <= Z.log2 n) by apply Z.log2_nonneg.
  pose proof (Z.log2_spec n Hn) as [L1 L2].
  assert (Hk : 0 < 2 ^ k) by (apply Z.pow_pos_nonneg; unfold k; lia).
  assert (E1 : 2 ^ Z.log2 n * 2 ^ k = 2 ^ 52) by (rewrite <- Z.pow_add_r by (unfold k; lia); f_equal; unfold k; lia).
  assert (E2 : 2 ^ Z.succ (Z.log2 n) * 2 ^ k = 2 ^ 53) by (rewrite <- Z.pow_add_r by (unfold k; lia); f_equal; unfold k; lia).
  assert (Hb : bounded 53 1024 (Z.to_pos (n * 2 ^ k)) (- k) = true).
  { apply bounded_intro; [nia|nia|unfold k; lia|intros _; nia]. }
  exists (Z.to_pos (n * 2 ^ k)), (- k).
  assert (Ed : dnum (Z.to_pos (n * 2 ^ k)) (- k) / dden (- k) = n /\
               n * dden (- k) = dnum (Z.to_pos (n * 2 ^ k)) (- k) * 1 /\ 0 < dden (- k)).
  { unfold dnum, dden, scale_num, scale_den. rewrite Z.opp_involutive. rewrite Z2Pos.id by nia.
    destruct (Z.leb_spec k 0) as [H|H].
    - replace k with 0 by (unfold k in *; lia). cbn [Z.opp]. change (2 ^ 0) with 1. rewrite !Z.mul_1_r, Z.div_1_r. lia.
    - rewrite Z.mul_1_l, Z.div_mul by lia. lia. }
  destruct Ed as (Ed & Ec & Ep). split; [|exact Ed].
  rewrite (rnd64_cross s n 1 (dnum (Z.to_pos (n * 2 ^ k)) (- k)) (dden (- k))) by (try lia; exact Ec).
  apply rnd64_self. exact Hb.
Qed.

Lemma long_exact : forall z, - 2 ^ 53 <= z <= 2 ^ 53 -> long_of_dbl (dbl_of_int z) = Ok z.
Proof.
  intros z Hz. destruct (Z.eq_dec z (2 ^ 53)) as [->|Hp]; [vm_compute; reflexivity|].
  destruct (Z.eq_dec z (- 2 ^ 53)) as [->|Hm]; [vm_compute; reflexivity|].
  destruct (Z.eq_dec z 0) as [->|H0]; [reflexivity|]. unfold dbl_of_int.
  destruct (small_int_value (Z.abs z) ltac:(lia) ltac:(lia) (z <? 0)) as (m & e & E1 & E2). rewrite E1.
  cbn [long_of_dbl]. rewrite E2. replace (if z <? 0 then - Z.abs z else Z.abs z) with z.
  2:{ destruct (Z.ltb_spec z 0); lia. }
  destruct (Z.leb_spec (- 2 ^ 63) z); [|lia]. destruct (Z.ltb_spec z (2 ^ 63)); [reflexivity|lia].
Qed.

Lemma wrap32_small : forall z, - 2 ^ 31 <= z < 2 ^ 31 -> wrap32 z = z.
Proof. intros z H. unfold wrap32. rewrite Z.mod_small by lia. lia. Qed.

(** ** Lines *)

Lemma until_spec : forall s t k, until nl s = (t, k) ->
  ~ In nl t /\ match k with Some r => s = t ++ nl :: r | None => s = t end.
Proof.
  induction s as [|c s IH]; intros t k H; cbn [until] in H.
  - injection H as <- <-. split; [intros []|reflexivity].
  - unfold ceq in H. destruct (ascii_dec c nl) as [->|Hc] eqn:Ec.
    + rewrite Ascii.eqb_refl in H. injection H as <- <-. split; [intros []|reflexivity].
    + replace (Ascii.eqb c nl) with false in H by (symmetry; apply Ascii.eqb_neq; exact Hc).
      destruct (until nl s) as [t0 k0] eqn:E. injection H as <- <-. destruct (IH _ _ eq_refl) as [H1 H2].
      split; [intros [H|H]; [congruence|exact (H1 H)]|]. destruct k0; rewrite H2; reflexivity.
Qed.

Lemma getline_spec : forall s t r, getline nl s = Some (t, r) ->
  ~ In nl t /\ ((s = t ++ nl :: r) \/ (s = t /\ r = [] /\ t <> [])).
Proof.
  intros s t r H. unfold getline in H. destruct s as [|c s]; [discriminate|].
  destruct (until nl (c :: s)) as [t0 k] eqn:E. injection H as <- <-.
  destruct (until_spec _ _ _ E) as [H1 H2]. split; [exact H1|]. destruct k; [left; exact H2|right].
  split; [exact H2|]. split; [reflexivity|congruence].
Qed.

Lemma until_line : forall t r, ~ In nl t -> until nl (t ++ nl :: r) = (t, Some r).
Proof.
  induction t as [|c t IH]; intros r H; cbn [app until].
  - unfold ceq. rewrite Ascii.eqb_refl. reflexivity.
  - unfold ceq. replace (Ascii.eqb c nl) with false.
    + rewrite IH; [reflexivity|]. intros K. apply H. right. exact K.
    + symmetry. apply Ascii.eqb_neq. intros ->. apply H. left. reflexivity.
Qed.
Lemma until_end : forall t, ~ In nl t -> until nl t = (t, None).
Proof.
  induction t as [|c t IH]; intros H; cbn [until]; [reflexivity|].
  unfold ceq. replace (Ascii.eqb c nl) with false.
  - rewrite IH; [reflexivity|]. intros K. apply H. right. exact K.
  - symmetry. apply Ascii.eqb_neq. intros ->. apply H. left. reflexivity.
Qed.
Lemma getline_line : forall t r, ~ In nl t -> getline nl (t ++ nl :: r) = Some (t, r).
Proof.
  intros t r H. unfold getline. rewrite until_line by exact H. destruct t; reflexivity.
Qed.
Lemma getline_end : forall t, ~ In nl t -> t <> [] -> getline nl t = Some (t, []).
Proof. intros t H Hn. unfold getline. rewrite until_end by exact H. destruct t; [congruence|reflexivity]. Qed.

(** The line decides. *)
Definition verdict (t : bytes) : option bool :=
  if bytes_eqb t (b "y") || bytes_eqb t (b "Y") then Some true
  else if bytes_eqb t (b "n") || bytes_eqb t (b "N") then Some false else None.

Lemma verdict_spec : forall t, match verdict t with
  | Some true => yes t | Some false => no t | None => ~ yes t /\ ~ no t end.
Proof.
  intros t. unfold verdict, yes, no.
  destruct (bytes_eqb t (b "y")) eqn:E1; [apply bytes_eqb_eq in E1; left; exact E1|].
  destruct (bytes_eqb t (b "Y")) eqn:E2; [apply bytes_eqb_eq in E2; right; exact E2|].
  destruct (bytes_eqb t (b "n")) eqn:E3; [apply bytes_eqb_eq in E3; left; exact E3|].
  destruct (bytes_eqb t (b "N")) eqn:E4; [apply bytes_eqb_eq in E4; right; exact E4|].
  assert (HN : forall x, bytes_eqb t x = false -> t <> x).
  { intros x H ->. rewrite bytes_eqb_refl in H. discriminate. }
  cbn [orb]. split; intros [H|H]; revert H; apply HN; assumption.
Qed.

Lemma yes_verdict : forall t, yes t -> verdict t = Some true.
Proof. intros t [-> | ->]; reflexivity. Qed.
Lemma no_verdict : forall t, no t -> verdict t = Some false.
Proof. intros t [-> | ->]; reflexivity. Qed.

Lemma prompt_step : forall f s, prompt_lines (S f) s =
  match getline nl s with
  | None => (false, [])
  | Some (t, r) => match verdict t with Some v => (v, r) | None => prompt_lines f r end
  end.
Proof.
  intros f s. cbn [prompt_lines]. destruct (getline nl s) as [[t r]|]; [|reflexivity]. unfold verdict.
  destruct (_ || _); [reflexivity|]. destruct (_ || _); reflexivity.
Qed.

Lemma prompt_fuel : forall n f s, (List.length s < n)%nat -> (List.length s < f)%nat -> prompt_lines n s = prompt_lines f s.
Proof.
  induction n as [|n IH]; intros f s Hn Hf; [lia|]. destruct f as [|f]; [lia|]. rewrite !prompt_step.
  destruct (getline nl s) as [[t r]|] eqn:E; [|reflexivity]. destruct (verdict t); [reflexivity|].
  assert (List.length r < List.length s)%nat.
  { destruct (getline_spec _ _ _ E) as [_ [-> | (-> & -> & Ht)]]; [rewrite app_length; cbn [List.length]; lia|].
    destruct t; [congruence|cbn; lia]. }
  apply IH; lia.
Qed.

Lemma prompt_eq : forall s, prompt s =
  match getline nl s with
  | None => (false, [])
  | Some (t, r) => match verdict t with Some v => (v, r) | None => prompt r end
  end.
Proof.
  intros s. unfold prompt at 1. rewrite prompt_step. destruct (getline nl s) as [[t r]|] eqn:E; [|reflexivity].
  destruct (verdict t); [reflexivity|]. unfold prompt. apply prompt_fuel; [|lia].
  destruct (getline_spec _ _ _ E) as [_ [-> | (-> & -> & Ht)]]; [rewrite app_length; cbn [List.length]; lia|].
  destruct t; [congruence|cbn; lia].
Qed.

(** The rest of the lines after [t], whether or not a newline ends it. *)
Definition line_end (t r s : bytes) : Prop := s = t ++ nl :: r \/ (s = t /\ r = []).

Lemma line_get : forall t r s, ~ In nl t -> t <> [] -> line_end t r s -> getline nl s = Some (t, r).
Proof. intros t r s H Hn [-> | (-> & ->)]; [apply getline_line; exact H|apply getline_end; assumption]. Qed.

Lemma yn_line : forall t, yes t \/ no t -> ~ In nl t /\ t <> [].
Proof.
  intros t H. assert (E : exists c, t = [c] /\ c <> nl).
  { destruct H as [[-> | ->]|[-> | ->]]; eexists; (split; [reflexivity|discriminate]). }
  destruct E as (c & -> & Hc). split; [intros [H0|[]]; congruence|discriminate].
Qed.

Lemma prompt_answer : forall v s r, prompt s = (v, r) <->
  exists l u, s = text_of l ++ u /\ Forall (fun t => ~ In nl t /\ ~ yes t /\ ~ no t) l /\
    ((exists t, (if v then yes t else no t) /\ line_end t r u) \/ (v = false /\ r = [] /\ ~ In nl u /\ ~ yes u /\ ~ no u)).
Proof.
  intros v s r. split.
  - remember (List.length s) as n eqn:En. assert (Hn : (List.length s <= n)%nat) by lia. clear En.
    revert s Hn. induction n as [|n IH]; intros s Hn H; rewrite prompt_eq in H.
    + destruct s; [|cbn in Hn; lia]. cbn [getline] in H. injection H as <- <-. exists [], [].
      split; [reflexivity|]. split; [constructor|]. right.
      repeat split; [intros []|intros [K|K]; discriminate K|intros [K|K]; discriminate K].
    + destruct (getline nl s) as [[t r0]|] eqn:E.
      2:{ destruct s; [|unfold getline in E; destruct (until nl (a :: s)); discriminate].
          injection H as <- <-. exists [], []. split; [reflexivity|]. split; [constructor|]. right.
          repeat split; [intros []|intros [K|K]; discriminate K|intros [K|K]; discriminate K]. }
      destruct (getline_spec _ _ _ E) as [H1 H2]. pose proof (verdict_spec t) as Hv. destruct (verdict t) as [w|].
      * injection H as <- <-. exists [], s. split; [reflexivity|]. split; [constructor|]. left. exists t.
        split; [exact Hv|]. destruct H2 as [H2|(H2 & H3 & _)]; [left; exact H2|right; auto].
      * destruct H2 as [H2|(H2 & H3 & H4)].
        -- destruct (IH r0) as (l & u & E1 & E2 & E3); [rewrite H2, app_length in Hn; cbn in Hn; lia|exact H|].
           exists (t :: l), u. split; [|split; [constructor; tauto|exact E3]].
           rewrite H2, E1. cbn [text_of flat_map]. rewrite <- !app_assoc. reflexivity.
        -- subst s r0. rewrite prompt_eq in H. cbn [getline] in H. injection H as <- <-.
           exists [], t. split; [reflexivity|]. split; [constructor|]. right. tauto.
  - intros (l & u & -> & Hl & Hu). induction Hl as [|t l (H1 & H2 & H3) Hl IH].
    + cbn [text_of flat_map app]. rewrite prompt_eq. destruct Hu as [(t & Ht & Hr)|(-> & -> & H1 & H2 & H3)].
      * assert (Hyn : yes t \/ no t) by (destruct v; auto). destruct (yn_line t Hyn) as [N1 N2].
        rewrite (line_get t r u N1 N2 Hr). destruct v; [rewrite yes_verdict by exact Ht|rewrite no_verdict by exact Ht]; reflexivity.
      * destruct u as [|c u]; [reflexivity|]. rewrite getline_end by (try exact H1; discriminate).
        pose proof (verdict_spec (c :: u)) as Hv. destruct (verdict (c :: u)) as [[]|]; try contradiction.
        rewrite prompt_eq. reflexivity.
    + rewrite prompt_eq. cbn [text_of flat_map]. rewrite <- !app_assoc. cbn [app]. rewrite getline_line by exact H1.
      pose proof (verdict_spec t) as Hv. destruct (verdict t) as [[]|]; try contradiction. exact IH.
Qed.

Lemma never_yes_prompt : forall s v r, never_yes s -> prompt s = (v, r) -> v = false /\ never_yes r.
Proof.
  intros s v r Hs H. apply prompt_answer in H as (l & u & E & _ & Hu).
  assert (Hp : text_of l = [] \/ exists p', text_of l = p' ++ [nl]).
  { clear. induction l as [|t l IH]; [left; reflexivity|right]. cbn [text_of flat_map].
    destruct IH as [IH|(p & IH)]; [exists t; unfold text_of in IH; rewrite IH, app_nil_r; reflexivity|].
    exists ((t ++ [nl]) ++ p). unfold text_of in IH. rewrite IH, app_assoc. reflexivity. }
  destruct Hu as [(t & Ht & Hr)|(-> & -> & _)].
  - assert (Hv : v = false).
    { destruct v; [exfalso|reflexivity]. destruct Hr as [-> | (-> & ->)].
      - apply (Hs (text_of l) t (nl :: r)); eauto.
      - apply (Hs (text_of l) t []); eauto. rewrite app_nil_r. exact E. }
    split; [exact Hv|]. destruct Hr as [-> | (-> & ->)].
    + intros p t' q E' Hy Hp' Hq. apply (Hs ((text_of l ++ t ++ [nl]) ++ p) t' q); [|exact Hy| |exact Hq].
      * rewrite E, E', <- !app_assoc. reflexivity.
      * right. destruct Hp' as [-> | (p' & ->)].
        -- exists (text_of l ++ t). rewrite app_nil_r, <- !app_assoc. reflexivity.
        -- exists ((text_of l ++ t ++ [nl]) ++ p'). rewrite <- !app_assoc. reflexivity.
    + intros p t' q E' Hy _ _. destruct p; [|discriminate]. destruct t'; [destruct Hy; discriminate|discriminate].
  - split; [reflexivity|]. intros p t' q E' Hy _ _. destruct p; [|discriminate]. destruct t'; [destruct Hy; discriminate|discriminate].
Qed.

(** ** Files by name *)

Lemma set_disk_other : forall n d w m, m <> n -> w_fs (set_disk n d w) m = w_fs w m.
Proof.
  intros n d w m H. unfold set_disk. destruct (w_ro w n); [reflexivity|]. cbn [w_fs].
  destruct (bytes_eqb n m) eqn:E; [apply bytes_eqb_eq in E; congruence|reflexivity].
Qed.
Lemma set_disk_same : forall n d w, w_ro w n = false -> w_fs (set_disk n d w) n = d.
Proof. intros n d w H. unfold set_disk. rewrite H. cbn [w_fs]. rewrite bytes_eqb_refl. reflexivity. Qed.
Lemma set_disk_ro : forall n d w, w_ro (set_disk n d w) = w_ro w.
Proof. intros. unfold set_disk. destruct (w_ro w n); reflexivity. Qed.
Lemma set_disk_in : forall n d w, w_in (set_disk n d w) = w_in w.
Proof. intros. unfold set_disk. destruct (w_ro w n); reflexivity. Qed.

Lemma put_back_other : forall l w m, ~ In m (map fst l) -> w_fs (put_back l w) m = w_fs w m.
Proof.
  induction l as [|[n d] l IH]; intros w m H; cbn [put_back]; [reflexivity|].
  rewrite IH by (intros K; apply H; right; exact K). apply set_disk_other. intros ->. apply H. left. reflexivity.
Qed.
Lemma put_back_same : forall l w n d, NoDup (map fst l) -> In (n, d) l -> w_ro w n = false -> w_fs (put_back l w) n = d.
Proof.
  induction l as [|[m e] l IH]; intros w n d Hd Hi Hr; [destruct Hi|]. cbn [put_back]. cbn [map fst] in Hd.
  apply NoDup_cons_iff in Hd as [H1 H2]. destruct Hi as [Hi|Hi].
  - injection Hi as -> ->. rewrite put_back_other by exact H1. apply set_disk_same. exact Hr.
  - apply IH; [exact H2|exact Hi|]. rewrite set_disk_ro. exact Hr.
Qed.

Lemma open_output_frame : forall name fmt md force i w o w', open_output name fmt md force i w = (o, w') ->
  w_ro w' = w_ro w /\ (forall m, m <> name -> w_fs w' m = w_fs w m) /\
  (forall nt, o = Ok nt -> fst nt = name).
Proof.
  intros name fmt md force i w o w' H. unfold open_output in H.
  destruct (parse_settings fmt md) as [[f m]|e].
  2:{ injection H as <- <-. repeat split; auto; discriminate. }
  destruct (match m with Overwrite => _ | _ => _ end) as [answer rest].
  destruct (open_file fmt md force i _ answer) as [[t a]|e].
  - injection H as <- <-. split; [rewrite set_disk_ro; reflexivity|]. split; [|intros nt E; injection E as <-; reflexivity].
    intros k Hk. rewrite set_disk_other by exact Hk. reflexivity.
  - injection H as <- <-. repeat split; auto; discriminate.
Qed.

Lemma open_element_frame : forall el w o w', open_element el w = (o, w') ->
  w_ro w' = w_ro w /\ (forall m, (forall v, field el "file" = Some v -> m <> to_string v) -> w_fs w' m = w_fs w m) /\
  (forall nt, o = Ok nt -> exists v, field el "file" = Some v /\ fst nt = to_string v).
Proof.
  intros el w o w' H. unfold open_element in H.
  assert (HE : forall e, (Er e, w) = (o, w') -> w_ro w' = w_ro w /\
    (forall m, (forall v, field el "file" = Some v -> m <> to_string v) -> w_fs w' m = w_fs w m) /\
    (forall nt, o = Ok nt -> exists v, field el "file" = Some v /\ fst nt = to_string v)).
  { intros e E. injection E as <- <-. repeat split; auto. discriminate. }
  destruct (has_key (b "file") el) eqn:Hf; cbn [negb] in H; [|exact (HE _ H)].
  destruct (has_key (b "format") el) eqn:Hg; cbn [negb] in H; [|exact (HE _ H)].
  destruct el as [| | | | | |l]; try exact (HE _ H). cbn [has_key] in Hf. cbn [field] in *.
  destruct (obj_get (b "file") l) as [v|]; [|discriminate Hf].
  match type of H with match ?X with _ => _ end = _ => destruct X as [i|e]; [|exact (HE _ H)] end.
  apply open_output_frame in H as (H1 & H2 & H3). split; [exact H1|]. split.
  - intros m Hm. apply H2. apply Hm. reflexivity.
  - intros nt E. exists v. split; [reflexivity|]. exact (H3 nt E).
Qed.

Lemma open_elements_frame : forall l w o w', open_elements l w = (o, w') ->
  w_ro w' = w_ro w /\
  (forall m, (forall el v, In el l -> field el "file" = Some v -> m <> to_string v) -> w_fs w' m = w_fs w m) /\
  (forall fs, o = Ok fs -> forall nt, In nt fs -> exists el v, In el l /\ field el "file" = Some v /\ fst nt = to_string v).
Proof.
  induction l as [|el l IH]; intros w o w' H; cbn [open_elements] in H.
  - injection H as <- <-. repeat split; auto. intros fs E nt Hn. injection E as <-. destruct Hn.
  - destruct (open_element el w) as [o1 w1] eqn:E1. apply open_element_frame in E1 as (A1 & A2 & A3).
    destruct o1 as [f|e].
    2:{ injection H as <- <-. split; [exact A1|]. split; [|discriminate].
        intros m Hm. apply A2. intros v. apply Hm. left. reflexivity. }
    destruct (open_elements l w1) as [o2 w2] eqn:E2. apply IH in E2 as (B1 & B2 & B3).
    assert (HW : w_ro w2 = w_ro w /\
      (forall m, (forall el0 v, In el0 (el :: l) -> field el0 "file" = Some v -> m <> to_string v) -> w_fs w2 m = w_fs w m)).
    { split; [congruence|]. intros m Hm. rewrite B2, A2; [reflexivity| |].
      - intros v. apply Hm. left. reflexivity.
      - intros el0 v Hi. apply Hm. right. exact Hi. }
    destruct o2 as [fs|e]; injection H as <- <-; destruct HW as [HW1 HW2]; (split; [exact HW1|]; split; [exact HW2|]).
    + intros fs' E nt Hn. injection E as <-. destruct Hn as [<- |Hn].
      * destruct (A3 f eq_refl) as (v & V1 & V2). exists el, v. split; [left; reflexivity|]. auto.
      * destruct (B3 fs eq_refl nt Hn) as (el0 & v & V0 & V1 & V2). exists el0, v. split; [right; exact V0|]. auto.
    + discriminate.
Qed.

Lemma open_outputs_frame : forall j ex w o w', field j "executable_settings" = Some ex \/
    (field j "executable_settings" = None /\ ex = JObj []) ->
  open_outputs ex w = (o, w') ->
  w_ro w' = w_ro w /\ (forall m, ~ listed j m -> w_fs w' m = w_fs w m) /\
  (forall fs, o = Ok fs -> forall nt, In nt fs -> listed j (fst nt)).
Proof.
  intros j ex w o w' Hex H. unfold open_outputs in H.
  assert (Hs : setting j "output" = field ex "output").
  { unfold setting. destruct Hex as [-> | (-> & ->)]; reflexivity. }
  unfold listed. rewrite Hs. clear Hs Hex.
  assert (HD : forall fmt md force i, (let '(o0, w1) := open_output (b "events.ascii") fmt md force i w in
    match o0 with Er x => (Er x, w1) | Ok f => (Ok [f], w1) end) = (o, w') ->
    w_ro w' = w_ro w /\ (forall m, m <> b "events.ascii" -> w_fs w' m = w_fs w m) /\
    (forall fs, o = Ok fs -> forall nt, In nt fs -> fst nt = b "events.ascii")).
  { clear H. intros fmt md force i. destruct (open_output _ _ _ _ _ _) as [o1 w1] eqn:E. apply open_output_frame in E as (A1 & A2 & A3).
    intros H. destruct o1 as [f|e]; injection H as <- <-; (split; [exact A1|]; split; [exact A2|]); [|discriminate].
    intros fs E nt Hn. injection E as <-. destruct Hn as [<- |[]]. apply A3. reflexivity. }
  unfold has_key in H. destruct ex as [| | | | | |l]; try (apply HD in H; exact H). cbn [field].
  unfold at_key in H. destruct (obj_get (b "output") l) as [v|]; [|apply HD in H; exact H].
  destruct v as [| | | | |els|]; try (injection H as <- <-; repeat split; auto; discriminate).
  apply open_elements_frame in H as (B1 & B2 & B3). split; [exact B1|]. split.
  - intros m Hm. apply B2. intros el v Hi Hf ->. apply Hm. exists el, v. auto.
  - exact B3.
Qed.

(** ** Files that only grow *)

Definition keeps (d d' : disk) : Prop := forall s, d = Some s -> exists q, d' = Some (s ++ q).
Lemma keeps_refl : forall d, keeps d d.
Proof. intros d s H. exists []. rewrite app_nil_r. exact H. Qed.
Lemma keeps_trans : forall a c d, keeps a c -> keeps c d -> keeps a d.
Proof.
  intros a c d H1 H2 s Hs. apply H1 in Hs as (q & Hq). apply H2 in Hq as (q' & ->). exists (q ++ q').
  rewrite app_assoc. reflexivity.
Qed.
Lemma keeps_acts : forall l d, Forall grows l -> keeps d (apply_acts l d).
Proof.
  intros l d H s ->. destruct (grow_some l s) as (t & Et). destruct (grow_prefix l s t H Et) as (q & ->). exists q. exact Et.
Qed.

Lemma keeps_set : forall n d w m, (m = n -> keeps (w_fs w m) d) -> keeps (w_fs w m) (w_fs (set_disk n d w) m).
Proof.
  intros n d w m H. unfold set_disk. destruct (w_ro w n); [apply keeps_refl|]. cbn [w_fs].
  destruct (bytes_eqb n m) eqn:E; [apply bytes_eqb_eq in E; apply H; congruence|apply keeps_refl].
Qed.


Lemma keeps_put : forall l w m s, (exists q, w_fs w m = Some (s ++ q)) ->
  (forall d, In (m, d) l -> exists q, d = Some (s ++ q)) -> exists q, w_fs (put_back l w) m = Some (s ++ q).
Proof.
  induction l as [|[n d] l IH]; intros w m s H0 H; cbn [put_back]; [exact H0|]. apply IH.
  - unfold set_disk. destruct (w_ro w n); [exact H0|]. cbn [w_fs].
    destruct (bytes_eqb n m) eqn:E; [|exact H0]. apply bytes_eqb_eq in E. subst n. apply H. left. reflexivity.
  - intros e He. apply H. right. exact He.
Qed.

Lemma escape_plain : forall s t, escape s = t -> ~ In bslash t -> s = t.
Proof.
  induction s as [|c s IH]; intros t H Hn; [exact H|]. cbn [escape flat_map] in H.
  assert (HC : escape1 c = [c] \/ exists r, escape1 c = bslash :: r).
  { unfold escape1. repeat match goal with |- context [if ?x then _ else _] => destruct x; [right; eexists; reflexivity|] end.
    left. reflexivity. }
  destruct HC as [E|(r & E)]; rewrite E in H.
  - cbn [app] in H. subst t. f_equal. apply IH; [reflexivity|]. intros K. apply Hn. right. exact K.
  - exfalso. apply Hn. subst t. left. reflexivity.
Qed.

Lemma to_string_json : forall v, to_string v = b "json" -> v = JStr (b "json").
Proof.
  intros v H. destruct v; try discriminate H. f_equal. apply escape_plain; [exact H|].
  intros [K|[K|[K|[K|[]]]]]; discriminate K.
Qed.

Lemma open_output_in : forall name fmt md force i w o w', open_output name fmt md force i w = (o, w') ->
  never_yes (w_in w) -> never_yes (w_in w').
Proof.
  intros name fmt md force i w o w' H Hn. unfold open_output in H.
  destruct (parse_settings fmt md) as [[f m]|e]; [|injection H as <- <-; exact Hn].
  destruct (match m with Overwrite => _ | _ => _ end) as [answer rest] eqn:E.
  assert (Hr : never_yes rest).
  { destruct m; [|injection E as <- <-; exact Hn|injection E as <- <-; exact Hn].
    destruct (_ && _); [exact (proj2 (never_yes_prompt _ _ _ Hn E))|injection E as <- <-; exact Hn]. }
  destruct (open_file fmt md force i _ answer) as [[t a]|e]; injection H as <- <-; [rewrite set_disk_in|]; exact Hr.
Qed.

Lemma open_output_keeps : forall name fmt md i w o w', open_output name fmt md false i w = (o, w') ->
  never_yes (w_in w) -> fmt <> b "json" ->
  (forall m, keeps (w_fs w m) (w_fs w' m)) /\ (forall nt, o = Ok nt -> t_mode (snd nt) <> Resume).
Proof.
  intros name fmt md i w o w' H Hn Hf. unfold open_output in H. unfold open_file in H.
  destruct (parse_settings fmt md) as [[f m]|e] eqn:Ep; [|injection H as <- <-; split; [intros; apply keeps_refl|discriminate]].
  cbn [bind] in H.
  assert (Hj : f <> FJson).
  { unfold parse_settings, parse_format in Ep. 
    destruct (bytes_eqb fmt (b "json")) eqn:Ej; [apply bytes_eqb_eq in Ej; congruence|]. intros ->.
    destruct (bytes_eqb fmt (b "root")), (bytes_eqb fmt (b "hepevt")), (bytes_eqb fmt (b "ascii")); try discriminate Ep;
      destruct (bytes_eqb md (b "overwrite")), (bytes_eqb md (b "append")), (bytes_eqb md (b "resume")); discriminate Ep. }
  set (ex := match w_fs w name with Some _ => true | None => false end) in *.
  assert (HA : forall t w0 a, w_fs w0 = w_fs w -> (ex = true -> Forall grows a) -> t_mode t <> Resume ->
    (Ok (name, t), set_disk name (apply_acts a (w_fs w0 name)) w0) = (o, w') ->
    (forall m0, keeps (w_fs w m0) (w_fs w' m0)) /\ (forall nt, o = Ok nt -> t_mode (snd nt) <> Resume)).
  { intros t w0 a E0 Ha Ht E. injection E as <- <-. split; [|intros nt E; injection E as <-; exact Ht].
    intros m0. rewrite <- E0. apply keeps_set. intros ->. rewrite E0. intros s Es. apply keeps_acts; [|exact Es].
    apply Ha. unfold ex. rewrite Es. reflexivity. }
  assert (HE : forall e w0, w_fs w0 = w_fs w -> (Er e, w0) = (o, w') ->
    (forall m0, keeps (w_fs w m0) (w_fs w' m0)) /\ (forall nt, o = Ok nt -> t_mode (snd nt) <> Resume)).
  { intros e w0 E0 E. injection E as <- <-. rewrite E0. split; [intros; apply keeps_refl|discriminate]. }
  destruct m.
  - destruct ex eqn:Eex; cbn [andb negb] in H.
    + destruct (prompt (w_in w)) as [answer rest] eqn:Ea. destruct (never_yes_prompt _ _ _ Hn Ea) as [-> _].
      cbn [negb] in H. destruct f; try congruence; (eapply HA; [| | |exact H]; [reflexivity|intros _; repeat constructor|discriminate]).
    + destruct f; try congruence; (eapply HA; [| | |exact H]; [reflexivity|discriminate|discriminate]).
  - eapply HA; [| | |exact H]; [reflexivity|intros _; repeat constructor|discriminate].
  - destruct f; try congruence; (eapply HE; [|exact H]; reflexivity).
Qed.

Lemma open_element_keeps : forall el w o w', open_element el w = (o, w') -> never_yes (w_in w) ->
  never_yes (w_in w') /\
  (careful el -> (forall m, keeps (w_fs w m) (w_fs w' m)) /\ (forall nt, o = Ok nt -> t_mode (snd nt) <> Resume)).
Proof.
  intros el w o w' H Hn. unfold open_element in H.
  assert (HE : forall e, (Er e, w) = (o, w') -> never_yes (w_in w') /\
    (careful el -> (forall m, keeps (w_fs w m) (w_fs w' m)) /\ (forall nt, o = Ok nt -> t_mode (snd nt) <> Resume))).
  { intros e E. injection E as <- <-. split; [exact Hn|]. intros _. split; [intros; apply keeps_refl|discriminate]. }
  destruct (has_key (b "file") el) eqn:Hf; cbn [negb] in H; [|exact (HE _ H)].
  destruct (has_key (b "format") el) eqn:Hg; cbn [negb] in H; [|exact (HE _ H)].
  destruct el as [| | | | | |l]; try exact (HE _ H).
  match type of H with match ?X with _ => _ end = _ => destruct X as [i|e]; [|exact (HE _ H)] end.
  split; [exact (open_output_in _ _ _ _ _ _ _ _ H Hn)|]. intros [C1 C2]. cbn [field] in C1, C2.
  cbn [has_key] in Hg. destruct (obj_get (b "format") l) as [v|]; [|discriminate Hg].
  assert (Hfo : (match obj_get (b "force") l with Some v => fst (to_bool v) | None => false end) = false).
  { destruct (obj_get (b "force") l) as [[|[]| | | | |]|]; try reflexivity. congruence. }
  rewrite Hfo in H. eapply open_output_keeps; [exact H|exact Hn|]. intros E. apply C2. f_equal. apply to_string_json. exact E.
Qed.

Lemma open_elements_keeps : forall l w o w' m, open_elements l w = (o, w') -> never_yes (w_in w) ->
  (forall el v, In el l -> field el "file" = Some v -> to_string v = m -> careful el) ->
  keeps (w_fs w m) (w_fs w' m) /\
  (forall fs, o = Ok fs -> forall nt, In nt fs -> fst nt = m -> t_mode (snd nt) <> Resume).
Proof.
  induction l as [|el l IH]; intros w o w' m H Hn Hc; cbn [open_elements] in H.
  - injection H as <- <-. split; [apply keeps_refl|]. intros fs E nt Hi. injection E as <-. destruct Hi.
  - destruct (open_element el w) as [o1 w1] eqn:E1. pose proof (open_element_frame _ _ _ _ E1) as (A1 & A2 & A3).
    pose proof (open_element_keeps _ _ _ _ E1 Hn) as (B1 & B2).
    assert (K1 : keeps (w_fs w m) (w_fs w1 m) /\ (forall nt, o1 = Ok nt -> fst nt = m -> t_mode (snd nt) <> Resume)).
    { destruct (field el "file") as [v|] eqn:Ef.
      - destruct (list_eq_dec ascii_dec (to_string v) m) as [Ev|Ev].
        + destruct (B2 (Hc el v (or_introl eq_refl) Ef Ev)) as [K1 K2]. split; [apply K1|]. intros nt E _. exact (K2 nt E).
        + split; [rewrite A2; [apply keeps_refl|intros v0 E0; injection E0 as <-; congruence]|].
          intros nt E Em. destruct (A3 nt E) as (v0 & E0 & E3). injection E0 as <-. congruence.
      - split; [rewrite A2; [apply keeps_refl|discriminate]|]. intros nt E Em. destruct (A3 nt E) as (v0 & E0 & _). discriminate. }
    destruct o1 as [f|e].
    2:{ injection H as <- <-. split; [exact (proj1 K1)|discriminate]. }
    destruct (open_elements l w1) as [o2 w2] eqn:E2.
    destruct (IH _ _ _ m E2 B1) as [L1 L2].
    { intros el0 v Hi. apply Hc. right. exact Hi. }
    assert (K : keeps (w_fs w m) (w_fs w2 m)) by (eapply keeps_trans; [exact (proj1 K1)|exact L1]).
    destruct o2 as [fs|e]; injection H as <- <-; (split; [exact K|]); [|discriminate].
    intros fs' E nt Hi Em. injection E as <-. destruct Hi as [<- |Hi]; [exact (proj2 K1 f eq_refl Em)|exact (L2 fs eq_refl nt Hi Em)].
Qed.

Section gen.
Variable C : Type.
Variable create : Z -> json -> res (generator C).
Variable next : C -> rng -> res (event * C * rng).
Variable flux : C -> spec_float.
Variable configure : json -> res unit.

(** ** The files of a run only grow, unless they are resumed *)

Definition grown (fd fd' : outfile) : Prop :=
  t_mode (fst fd) <> Resume -> t_mode (fst fd') <> Resume /\ keeps (snd fd) (snd fd').
Lemma grown_refl : forall fs, Forall2 grown fs fs.
Proof. induction fs; constructor; auto. intros H. split; [exact H|apply keeps_refl]. Qed.
Lemma grown_trans : forall a c d, Forall2 grown a c -> Forall2 grown c d -> Forall2 grown a d.
Proof.
  intros a c d H. revert d. induction H as [|x y a c Hx H IH]; intros d H2; inversion H2 as [|? z ? d' Hy H3]; subst; constructor.
  - intros Hm. destruct (Hx Hm) as [M1 K1]. destruct (Hy M1) as [M2 K2]. split; [exact M2|eapply keeps_trans; eassumption].
  - apply IH. exact H3.
Qed.

Lemma resume_files_grown : forall now fs g0, Forall2 grown fs (fst (resume_files C create now fs g0)).
Proof.
  intros now. induction fs as [|[f d] fs IH]; intros g0; cbn [resume_files]; [constructor|].
  destruct (t_mode f) eqn:Em.
  1-2: specialize (IH g0); destruct (resume_files C create now fs g0) as [r' y]; constructor; [|exact IH];
    intros Hm; split; [exact Hm|apply keeps_refl].
  destruct g0 as [g0|]; [apply grown_refl|].
  destruct (resume C create now _ f) as [x a]. destruct x as [[[g n] f']|e].
  - specialize (IH (Some (g, n))). destruct (resume_files C create now fs (Some (g, n))) as [r' y].
    constructor; [|exact IH]. intros Hm. cbn [fst] in Hm. congruence.
  - constructor; [|apply grown_refl]. intros Hm. cbn [fst] in Hm. congruence.
Qed.

Lemma write_event_mode : forall ev f f' a, write_event ev f = Ok (f', a) -> t_mode f' = t_mode f /\ Forall grows a.
Proof.
  intros ev f f' a H. unfold write_event in H. destruct (t_format f); try discriminate H; injection H as <- <-;
    (split; [reflexivity|repeat constructor]).
Qed.

Lemma write_files_grown : forall ev fs, Forall2 grown fs (fst (write_files ev fs)).
Proof.
  intros ev. induction fs as [|[f d] fs IH]; cbn [write_files]; [constructor|].
  destruct (write_event ev f) as [[f' a]|e] eqn:E; [|apply grown_refl].
  destruct (write_files ev fs) as [r' y]. constructor; [|exact IH]. apply write_event_mode in E as [E1 E2].
  intros Hm. cbn [fst snd] in *. split; [congruence|apply keeps_acts; exact E2].
Qed.

Lemma event_loop_grown : forall todo k intr count g fs, Forall2 grown fs (fst (event_loop C next todo k intr count g fs)).
Proof.
  induction todo as [|todo IH]; intros k intr count g fs; cbn [event_loop]; [apply grown_refl|].
  destruct (intr k); [apply grown_refl|]. destruct (create_event C next g) as [[ev g']|e]; [|apply grown_refl].
  pose proof (write_files_grown ev fs) as Hw. destruct (write_files ev fs) as [fs' y]. cbn [fst] in Hw.
  destruct y; [|exact Hw]. eapply grown_trans; [exact Hw|apply IH].
Qed.

Lemma flux_all_grown : forall x fs, Forall2 grown fs (flux_all x fs).
Proof.
  intros x. induction fs as [|[f d] fs IH]; [constructor|]. cbn [flux_all map fst snd]. constructor; [|exact IH].
  unfold write_flux. destruct (t_format f); try (intros Hm; split; [exact Hm|apply keeps_refl]).
  destruct d as [[|c s]|]; intros Hm; (split; [exact Hm|]); cbn [fst snd]; apply keeps_acts; repeat constructor.
Qed.

Definition kept (fd : outfile) (d : disk) : Prop := t_mode (fst fd) <> Resume -> keeps (snd fd) d.
Lemma grown_snd : forall fs fs', Forall2 grown fs fs' -> Forall2 kept fs (map snd fs').
Proof. intros fs fs' H. induction H; constructor; auto. intros Hm. apply H. exact Hm. Qed.

Lemma close_all_grown : forall config g n fs fs', Forall2 grown fs fs' -> Forall2 kept fs (close_all C flux config g n fs').
Proof.
  intros config g n fs fs' H. induction H as [|x y fs fs' Hx H IH]; constructor; [|exact IH].
  intros Hm. destruct (Hx Hm) as [_ Hk]. eapply keeps_trans; [exact Hk|]. apply keeps_acts. unfold close_file.
  destruct (t_format (fst y)); repeat constructor.
Qed.

Lemma run_files_kept : forall now config num intr fs,
  Forall2 kept fs (fst (run_files C create next flux now config num intr fs)).
Proof.
  intros now config num intr fs. unfold run_files. pose proof (resume_files_grown now fs None) as Hr.
  destruct (resume_files C create now fs None) as [fs1 og]. cbn [fst] in Hr.
  match goal with |- context [match ?X with Ok _ => _ | Er _ => _ end] => destruct X as [[g old]|e] end.
  2:{ apply grown_snd. exact Hr. }
  match goal with |- context [event_loop C next ?t ?k intr ?c g ?l] => pose proof (event_loop_grown t k intr c g l) as Hl end.
  destruct (event_loop C next _ _ _ _ _ _) as [fs2 y]. cbn [fst] in Hl.
  assert (Hg : Forall2 grown fs fs2).
  { eapply grown_trans; [exact Hr|]. eapply grown_trans; [apply flux_all_grown|exact Hl]. }
  destruct y as [[count g']|e]; [apply close_all_grown; exact Hg|apply grown_snd; exact Hg].
Qed.

(** ** Runs with new files *)

Definition fits (fd : outfile) : Prop := t_mode (fst fd) <> Resume /\ t_format (fst fd) <> FRoot.

Lemma resume_files_none : forall now fs g0, Forall fits fs -> resume_files C create now fs g0 = (fs, Ok g0).
Proof.
  intros now fs g0 H. induction H as [|[f d] fs [H1 _] H IH]; [reflexivity|]. cbn [resume_files]. cbn [fst] in H1.
  destruct (t_mode f); try congruence; rewrite IH; reflexivity.
Qed.

Lemma write_event_fits : forall ev f, t_format f <> FRoot -> exists f' a, write_event ev f = Ok (f', a) /\
  t_mode f' = t_mode f /\ t_format f' = t_format f.
Proof.
  intros ev f H. unfold write_event. destruct (t_format f) eqn:E; try congruence; do 2 eexists; (split; [reflexivity|]); auto.
Qed.

Lemma write_files_ok : forall ev fs, Forall fits fs -> exists fs', write_files ev fs = (fs', Ok tt) /\
  Forall2 (received [ev]) fs fs' /\ Forall fits fs'.
Proof.
  intros ev fs H. induction H as [|[f d] fs [H1 H2] H IH]; [exists []; repeat split; constructor|].
  cbn [fst] in H1, H2. destruct (write_event_fits ev f H2) as (f' & a & E & M & F). destruct IH as (fs' & E1 & E2 & E3).
  cbn [write_files]. rewrite E, E1. eexists. split; [reflexivity|]. split; constructor; auto.
  - exists a. cbn [write_many fst snd]. rewrite E. cbn [bind]. rewrite app_nil_r. auto.
  - split; cbn [fst]; congruence.
Qed.

Lemma event_loop_cases : forall todo k intr count g fs fs' r, Forall fits fs ->
  event_loop C next todo k intr count g fs = (fs', r) ->
  exists m evs g1, produces C next m g = Ok (evs, g1) /\ List.length evs = m /\ (m <= todo)%nat /\
    (forall i, (i < m)%nat -> intr (k + i)%nat = false) /\ Forall2 (received evs) fs fs' /\
    (((m < todo)%nat /\ intr (k + m)%nat = false /\ exists e, create_event C next g1 = Er e /\ r = Er e) \/
     (r = Ok (count + Z.of_nat m, g1) /\ ((m < todo)%nat -> intr (k + m)%nat = true))).
Proof.
  induction todo as [|todo IH]; intros k intr count g fs fs' r Hf H; cbn [event_loop] in H.
  - injection H as <- <-. exists 0%nat, [], g. repeat split; try lia. { apply received_nil. }
    right. split; [f_equal; f_equal; lia|lia].
  - destruct (intr k) eqn:Ek.
    { injection H as <- <-. exists 0%nat, [], g. repeat split; try lia. { apply received_nil. }
      right. rewrite Nat.add_0_r. split; [f_equal; f_equal; lia|auto]. }
    destruct (create_event C next g) as [[ev g']|e] eqn:Ec.
    2:{ injection H as <- <-. exists 0%nat, [], g. repeat split; try lia. { apply received_nil. }
        left. rewrite Nat.add_0_r. split; [lia|]. split; [exact Ek|]. exists e. auto. }
    destruct (write_files_ok ev fs Hf) as (fs1 & W1 & W2 & W3). rewrite W1 in H.
    apply IH in H as (m & evs & g1 & P1 & P2 & P3 & P4 & P5 & P6); [|exact W3].
    exists (S m), (ev :: evs), g1. split; [cbn [produces]; rewrite Ec; cbn [bind]; rewrite P1; reflexivity|].
    split; [cbn [List.length]; lia|]. split; [lia|].
    split. { intros [|i] Hi; [rewrite Nat.add_0_r; exact Ek|]. replace (k + S i)%nat with (S k + i)%nat by lia. apply P4. lia. }
    split; [eapply received_trans; eassumption|]. replace (k + S m)%nat with (S k + m)%nat by lia.
    destruct P6 as [(Q1 & Q2)|(Q1 & Q2)]; [left; split; [lia|exact Q2]|right].
    split; [rewrite Q1; f_equal; f_equal; lia|]. intros Hm. apply Q2. lia.
Qed.

Lemma flux_all_fits : forall x fs, Forall fits fs -> Forall fits (flux_all x fs).
Proof.
  intros x fs H. rewrite flux_all_map. apply Forall_map. eapply Forall_impl; [|exact H].
  intros [f d] [H1 H2]. unfold after_flux, write_flux, fits. cbn [fst snd] in *.
  destruct (t_format f) eqn:E; try (cbn [fst t_mode t_format]; split; congruence).
  destruct d as [[|]|]; cbn [fst t_mode t_format]; split; congruence.
Qed.

Lemma run_files_cases : forall now config num intr fs ds r, Forall fits fs ->
  run_files C create next flux now config num intr fs = (ds, r) ->
  (exists e, create now config = Er e /\ r = Er e /\ ds = map snd fs) \/
  (exists g m evs g1 fs2, create now config = Ok g /\ produces C next m g = Ok (evs, g1) /\ List.length evs = m /\
     (m <= Z.to_nat num)%nat /\ (forall i, (i < m)%nat -> intr i = false) /\
     Forall2 (received evs) (map (after_flux (flux (g_cfg g))) fs) fs2 /\
     ((exists e, (m < Z.to_nat num)%nat /\ intr m = false /\ create_event C next g1 = Er e /\ r = Er e /\ ds = map snd fs2) \/
      (r = Ok (Z.of_nat m) /\ ((m < Z.to_nat num)%nat -> intr m = true) /\
       ds = close_all C flux config g1 (Z.of_nat m) fs2))).
Proof.
  intros now config num intr fs ds r Hf H. unfold run_files in H. rewrite resume_files_none in H by exact Hf.
  destruct (create now config) as [g|e]; cbn [bind] in H.
  2:{ left. injection H as <- <-. exists e. auto. }
  right. rewrite Z.sub_0_r, Z.add_0_r in H. 
  destruct (event_loop C next (Z.to_nat num) 0 intr 1 g (flux_all (flux (g_cfg g)) fs)) as [fs2 y] eqn:E.
  apply event_loop_cases in E as (m & evs & g1 & P1 & P2 & P3 & P4 & P5 & P6); [|apply flux_all_fits; exact Hf].
  rewrite flux_all_map in P5. exists g, m, evs, g1, fs2. split; [reflexivity|]. split; [exact P1|]. split; [exact P2|].
  split; [exact P3|]. split; [exact P4|]. split; [exact P5|]. cbn [Nat.add] in P6.
  destruct P6 as [(Q1 & Q2 & e & Q3 & ->)|(-> & Q)]; [left|right].
  - injection H as <- <-. exists e. auto.
  - replace (1 + Z.of_nat m - 1) with (Z.of_nat m) in H by lia. injection H as <- <-. auto.
Qed.

(** ** Opening the files *)

Definition tfile_of (r : request) : tfile := mkt (r_format r) Overwrite (r_indent r) false dbl_zero.

Lemma open_wanted : forall ex el name fmt i w, wants ex el name fmt i ->
  ex name = (match w_fs w name with Some _ => true | None => false end) ->
  exists a, open_element el w = (Ok (name, mkt fmt Overwrite i false dbl_zero), set_disk name (apply_acts a (w_fs w name)) w) /\
    (forall d, apply_acts a d = Some (opened (mkr name fmt i))).
Proof.
  intros ex el name fmt i w [W1 W2 (k & W3 & Wk) W4 W5 W6] He.
  destruct el as [| | | | | |l]; try discriminate W1. cbn [field] in *.
  assert (Hfmt : to_string (JStr (b k)) = b k /\ parse_format (b k) = Some fmt /\ (bytes_eqb (b k) (b "json") = true <-> fmt = FJson)).
  { destruct Wk as [E|[E|[E|[]]]]; injection E as <- <-; (split; [reflexivity|]); (split; [reflexivity|]); split; try reflexivity; discriminate. }
  destruct Hfmt as (F1 & F2 & F3).
  assert (Hi : (if bytes_eqb (b k) (b "json") then
             match obj_get (b "indent") l with
             | Some v =>
                 let i := wrap32 (fst (to_long v)) in
                 if negb (snd (to_long v)) || (i <? 0) then Er MarleyErr else Ok (Some (Z.to_nat i))
             | None => Ok None
             end
           else Ok None) = Ok i).
  { destruct (bytes_eqb (b k) (b "json")).
    - rewrite (proj1 F3 eq_refl) in W6. destruct i as [n|]; [|rewrite W6; reflexivity].
      destruct W6 as [-> Wn]. cbn [to_long fst snd negb orb]. rewrite wrap32_small by lia.
      destruct (Z.ltb_spec (Z.of_nat n) 0); [lia|]. rewrite Nat2Z.id. reflexivity.
    - destruct fmt; try (rewrite W6; reflexivity). discriminate (proj2 F3 eq_refl). }
  assert (Hm : match obj_get (b "mode") l with Some v => to_string v | None => b "overwrite" end = b "overwrite").
  { destruct W4 as [-> | ->]; reflexivity. }
  assert (Hn : to_string (JStr name) = name) by exact W2.
  exists (Trunc :: match fmt with FJson => [Put (start_json i)] | _ => [] end). split.
  2:{ intros d. unfold opened. cbn [r_format r_indent]. destruct fmt; reflexivity. }
  unfold open_element, has_key. rewrite W1, W3. cbn [negb]. cbv zeta in Hi |- *. rewrite F1, Hm, Hn. rewrite Hi.
  unfold open_output, open_file, parse_settings. rewrite F2.
  change (bytes_eqb (b "overwrite") (b "overwrite")) with true. cbn [bind].
  rewrite <- He.
  assert (Hx : ex name && negb (match obj_get (b "force") l with Some v => fst (to_bool v) | None => false end) = false).
  { destruct W5 as [-> | ->]; [cbn [to_bool fst negb]; apply andb_false_r|reflexivity]. }
  rewrite Hx. cbn [andb]. destruct w as [fs ro inp]. reflexivity.
Qed.

Lemma open_wants : forall ex els rs, Forall2 (fun el r => wants ex el (r_name r) (r_format r) (r_indent r)) els rs ->
  forall w, (forall r, In r rs -> ex (r_name r) = match w_fs w (r_name r) with Some _ => true | None => false end) ->
  NoDup (map r_name rs) -> (forall r, In r rs -> w_ro w (r_name r) = false) ->
  exists w1, open_elements els w = (Ok (map (fun r => (r_name r, tfile_of r)) rs), w1) /\ w_ro w1 = w_ro w /\
    (forall m, ~ In m (map r_name rs) -> w_fs w1 m = w_fs w m) /\
    (forall r, In r rs -> w_fs w1 (r_name r) = Some (opened r)).
Proof.
  intros ex els rs H. induction H as [|el r els rs Hw H IH]; intros w He Hd Hr.
  - exists w. split; [reflexivity|]. split; [reflexivity|]. split; [reflexivity|]. intros r [].
  - cbn [map] in Hd. apply NoDup_cons_iff in Hd as [D1 D2].
    destruct (open_wanted _ _ _ _ _ w Hw (He r (or_introl eq_refl))) as (a & E1 & E2).
    set (w0 := set_disk (r_name r) (apply_acts a (w_fs w (r_name r))) w) in *.
    assert (Ho : forall m, m <> r_name r -> w_fs w0 m = w_fs w m) by (intros m Hm; apply set_disk_other; exact Hm).
    destruct (IH w0) as (w1 & F1 & F2 & F3 & F4).
    + intros r' Hr'. rewrite Ho; [apply He; right; exact Hr'|]. intros K. apply D1. rewrite <- K. apply in_map. exact Hr'.
    + exact D2.
    + intros r' Hr'. unfold w0. rewrite set_disk_ro. apply Hr. right. exact Hr'.
    + exists w1. cbn [open_elements]. rewrite E1, F1. split; [reflexivity|].
      split; [rewrite F2; apply set_disk_ro|]. split.
      * intros m Hm. rewrite F3 by (intros K; apply Hm; right; exact K). apply Ho. intros K. apply Hm. left. auto.
      * intros r' [<- |Hr']; [|apply F4; exact Hr']. rewrite F3 by exact D1. unfold w0.
        rewrite set_disk_same by (apply Hr; left; reflexivity). rewrite E2. destruct r; reflexivity.
Qed.

Definition start (rs : list request) : list outfile := map (fun r => (tfile_of r, Some (opened r))) rs.

Lemma job_plan : forall now intr cfg w j num rs, plan w cfg j num rs -> configure j = Ok tt ->
  exists w1, w_ro w1 = w_ro w /\ (forall m, ~ In m (map r_name rs) -> w_fs w1 m = w_fs w m) /\
    job C create next flux configure now intr cfg w =
    let '(ds, r) := run_files C create next flux now j num intr (start rs) in
    (put_back (combine (map r_name rs) ds) w1, r).
Proof.
  intros now intr cfg w j num rs [(s & P1 & P1') (l0 & Pj) P2 P3 P5 P6 P8 P9] Hc.
  assert (HX : exists l, get_object (b "executable_settings") j = Ok (JObj l) /\
    forall k, setting j k = obj_get (b k) l).
  { subst j. cbn [field get_object] in *. unfold setting. cbn [field].
    destruct P2 as [P2|(l & P2)]; rewrite P2; eexists; (split; [reflexivity|]); intros k; reflexivity. }
  destruct HX as (l & X1 & X2).
  assert (HS : exists i, run_settings j = Ok (JObj l, num, i)).
  { unfold run_settings. rewrite X1. cbn [bind].
    assert (E1 : get_long (b "events") (Some 1000) (JObj l) = Ok num).
    { unfold get_long, get. rewrite <- X2. destruct P3 as [[P3 P4]|[P3 P4]]; rewrite P3; [|subst num; reflexivity].
      unfold to_long_or_throw. cbn [to_long fst snd]. apply long_exact. exact P4. }
    rewrite E1. cbn [bind has_key at_key]. rewrite <- X2.
    destruct P5 as [P5|(k & P5 & P5')]; rewrite P5; [eexists; reflexivity|]. cbn [bind to_long fst snd negb orb].
    rewrite wrap32_small by lia. destruct (Z.ltb_spec k 1); [lia|]. eexists. reflexivity. }
  destruct HS as (i & HS).
  assert (HO : exists w1, open_outputs (JObj l) w = (Ok (map (fun r => (r_name r, tfile_of r)) rs), w1) /\ w_ro w1 = w_ro w /\
    (forall m, ~ In m (map r_name rs) -> w_fs w1 m = w_fs w m) /\
    (forall r, In r rs -> w_fs w1 (r_name r) = Some (opened r))).
  { unfold open_outputs. cbn [has_key at_key]. rewrite <- X2. destruct P6 as [(els & P6 & P7)|(P6 & -> & P7)]; rewrite P6.
    - apply (open_wants _ _ _ P7 w); [reflexivity|exact P8|exact P9].
    - unfold open_output, open_file. change (parse_settings (b "ascii") (b "overwrite")) with (Ok (FAscii, Overwrite)).
      unfold there in P7. rewrite P7. cbn [bind andb]. eexists. split; [reflexivity|].
      split; [rewrite set_disk_ro; reflexivity|]. split.
      + intros m Hm. rewrite set_disk_other; [reflexivity|]. intros ->. apply Hm. left. reflexivity.
      + intros r [<- |[]]. apply (set_disk_same (b "events.ascii")). exact (P9 _ (or_introl eq_refl)). }
  destruct HO as (w1 & O1 & O2 & O3 & O4). exists w1. split; [exact O2|]. split; [exact O3|].
  unfold job. rewrite P1, P1'. cbn [bind]. rewrite Hc. cbn [bind]. rewrite HS. cbn [bind]. rewrite O1.
  rewrite map_map. cbn [fst snd].
  replace (map (fun x : request => (tfile_of x, w_fs w1 (r_name x))) rs) with (start rs).
  2:{ unfold start. apply map_ext_in. intros r Hr. rewrite O4 by exact Hr. reflexivity. }
  rewrite map_map. cbn [fst]. reflexivity.
Qed.

Lemma plan_fits : forall w cfg j num rs, plan w cfg j num rs -> Forall (fun r => r_format r <> FRoot) rs.
Proof.
  intros w cfg j num rs [_ _ _ _ _ [(els & _ & H)|(_ & -> & _)] _ _]; [|repeat constructor; discriminate]. clear - H.
  induction H as [|el r els rs [_ _ (k & _ & Wk) _ _ _] H IH]; constructor; [|exact IH].
  destruct Wk as [E|[E|[E|[]]]]; injection E; congruence.
Qed.

Lemma start_fits : forall rs, Forall (fun r => r_format r <> FRoot) rs -> Forall fits (start rs).
Proof. intros rs H. apply Forall_map. eapply Forall_impl; [|exact H]. intros r Hr. split; [discriminate|exact Hr]. Qed.

Lemma start_fresh : forall r, r_format r <> FRoot -> fresh_file (tfile_of r, Some (opened r)).
Proof.
  intros [n f i] Hr. cbn [r_format] in Hr. destruct f; try congruence.
  - exists (b "hepevt"), true, i, None, true. eexists. repeat split; try reflexivity; discriminate.
  - exists (b "json"), true, i, None, true. eexists. repeat split; try reflexivity; discriminate.
  - exists (b "ascii"), true, i, None, true. eexists. repeat split; try reflexivity; discriminate.
Qed.

(** ** What is in an unfinished file *)

Lemma write_many_part : forall evs f, t_format f = FJson -> exists f' a, write_many evs f = Ok (f', a) /\
  forall s, apply_acts a (Some s) = Some (s ++
    if t_comma f then flat_map (fun e => b "," ++ ind1 (t_indent f) (fun n => nl :: spaces (2 * n)) ++ event_text (t_indent f) (event_json e)) evs
    else json_part (t_indent f) evs).
Proof.
  induction evs as [|ev evs IH]; intros f Hf; cbn [write_many].
  - exists f, []. split; [reflexivity|]. intros s. destruct (t_comma f); cbn; rewrite app_nil_r; reflexivity.
  - unfold write_event at 1. rewrite Hf. cbn [bind].
    destruct (IH (mkt FJson (t_mode f) (t_indent f) true (t_flux f)) eq_refl) as (f' & a & E & Ha). rewrite E. cbn [bind].
    eexists _, _. split; [reflexivity|]. intros s. cbn [t_comma t_indent] in Ha.
    set (u := (if t_comma f then _ else _) ++ event_text (t_indent f) (event_json ev)).
    change (apply_acts a (Some (s ++ u)) = Some (s ++ (if t_comma f then
      flat_map (fun e => b "," ++ ind1 (t_indent f) (fun n => nl :: spaces (2 * n)) ++ event_text (t_indent f) (event_json e)) (ev :: evs)
      else json_part (t_indent f) (ev :: evs)))).
    rewrite Ha. unfold u. destruct (t_comma f); cbn [flat_map json_part app]; rewrite <- !app_assoc; reflexivity.
Qed.

Lemma received_text : forall x evs r fd', r_format r <> FRoot ->
  received evs (after_flux x (tfile_of r, Some (opened r))) fd' -> snd fd' = Some (unfinished x evs r).
Proof.
  intros x evs [n f i] fd' Hr (a & A1 & A2). unfold after_flux, tfile_of, opened, write_flux, unfinished in *.
  cbn [r_format r_indent fst snd t_format t_mode t_indent t_comma] in *. destruct f; try congruence; cbn [fst snd] in *.
  - destruct (write_many_hep evs (mkt FHepevt Overwrite i false x) eq_refl) as (a' & E1 & E2).
    rewrite A1 in E1. injection E1 as _ E1. subst a'. rewrite A2. exact (E2 []).
  - destruct (write_many_part evs (mkt FJson Overwrite i false x) eq_refl) as (f' & a' & E1 & E2).
    rewrite A1 in E1. injection E1 as _ E1. subst a'. rewrite A2. exact (E2 (start_json i)).
  - destruct (write_many_ascii evs (mkt FAscii Overwrite i false x) eq_refl) as (a' & E1 & E2).
    rewrite A1 in E1. injection E1 as _ E1. subst a'. rewrite A2.
    change (apply_acts a (Some (show_e17 x ++ [nl])) = Some (show_e17 x ++ nl :: flat_map print_event evs)).
    rewrite E2. rewrite <- app_assoc. reflexivity.
Qed.

Lemma crash_now : forall p q : list act, crash (p ++ q) p.
Proof. induction p; intros q; [constructor|apply cr_next; auto]. Qed.

Lemma unfinished_bad : forall config g n x evs r, Forall (event_ok normal_dbl) evs ->
  savable flux normal_dbl config g n -> r_format r = FJson -> forall v, load (unfinished x evs r) <> Ok v.
Proof.
  intros config g n x evs [nm f i] Hev Hsv Hf. cbn [r_format] in Hf. subst f.
  destruct (write_many_part evs (mkt FJson Overwrite i false dbl_zero) eq_refl) as (f' & a & E1 & E2).
  set (se := mkss 0 i evs config g n).
  set (p := [Trunc; Put (start_json i)] ++ a).
  assert (Ef : t_format f' = FJson).
  { clear - E1. assert (HG : forall evs f f' a, t_format f = FJson -> write_many evs f = Ok (f', a) -> t_format f' = FJson).
    { clear. induction evs as [|ev evs IH]; intros f f' a Hf H; cbn [write_many] in H; [congruence|].
      unfold write_event at 1 in H. rewrite Hf in H. cbn [bind] in H.
      match type of H with (do _ <- ?X; _) = _ => destruct X as [[f2 a2]|] eqn:E; [|discriminate H] end.
      cbn [bind] in H. injection H as <- <-. eapply IH; [|exact E]. reflexivity. }
    eapply HG; [|exact E1]. reflexivity. }
  assert (Ha : fresh_acts C flux se false = Ok (p ++ close_file C flux config g n f')).
  { unfold fresh_acts, se. cbn [ss_indent ss_events ss_config ss_gen ss_count].
    change (open_file (b "json") (b "overwrite") true i false true) with
      (Ok (mkt FJson Overwrite i false dbl_zero, [Trunc; Put (start_json i)])). cbn [bind]. rewrite E1. cbn [bind].
    unfold p. rewrite <- app_assoc. reflexivity. }
  assert (Ep : apply_acts p None = Some (unfinished x evs (mkr nm FJson i))).
  { unfold p. rewrite apply_acts_app. exact (E2 (start_json i)). }
  destruct (events_floats _ _ Hev) as [Hfl _].
  destruct (crash_fresh C flux normal_dbl best_num normal_dbl best_num se None false _ p class_best class_best Hfl Hsv Ha (crash_now _ _))
    as [H|(q & Q1 & [Q2|Q2])].
  - rewrite Ep in H. discriminate H.
  - rewrite Ep in Q1. injection Q1 as <-. exact Q2.
  - exfalso. rewrite apply_acts_app, Q1 in Q2. unfold close_file in Q2. rewrite Ef in Q2.
    cbn [apply_acts fold_left apply_act] in Q2. injection Q2 as Q2.
    apply (f_equal (@List.length ascii)) in Q2. rewrite !app_length in Q2. cbn [List.length b list_ascii_of_string] in Q2. lia.
Qed.

(** ** The files at the end *)

Lemma put_back_all : forall (P : request -> disk -> Prop) rs ds w1, Forall2 P rs ds -> NoDup (map r_name rs) ->
  (forall r, In r rs -> w_ro w1 (r_name r) = false) ->
  Forall (fun r => P r (w_fs (put_back (combine (map r_name rs) ds) w1) (r_name r))) rs /\
  (forall m, ~ In m (map r_name rs) -> w_fs (put_back (combine (map r_name rs) ds) w1) m = w_fs w1 m).
Proof.
  intros P rs ds w1 H Hd Hr.
  assert (E : map fst (combine (map r_name rs) ds) = map r_name rs).
  { clear - H. induction H; cbn [map combine fst]; [reflexivity|]. f_equal. assumption. }
  split; [|intros m Hm; apply put_back_other; rewrite E; exact Hm].
  apply Forall_forall. intros r Hi.
  assert (HI : exists d, In (r_name r, d) (combine (map r_name rs) ds) /\ P r d).
  { clear - H Hi. induction H as [|r0 d0 rs ds H0 H IH]; [destruct Hi|]. destruct Hi as [-> |Hi].
    - exists d0. split; [left; reflexivity|exact H0].
    - destruct (IH Hi) as (d & D1 & D2). exists d. split; [right; exact D1|exact D2]. }
  destruct HI as (d & D1 & D2). rewrite (put_back_same _ _ _ d); [exact D2|rewrite E; exact Hd|exact D1|apply Hr; exact Hi].
Qed.

(** Everything that can come of a planned job. *)
Lemma job_outcomes : forall now intr cfg w j num rs w' r, plan w cfg j num rs -> configure j = Ok tt ->
  all_floats normal_dbl j -> (forall g, create now j = Ok g -> printable C next flux normal_dbl g) ->
  job C create next flux configure now intr cfg w = (w', r) ->
  (forall m, ~ In m (map r_name rs) -> w_fs w' m = w_fs w m) /\
  ((exists e, create now j = Er e /\ r = Er e /\ Forall (fun q => w_fs w' (r_name q) = Some (opened q)) rs) \/
   (exists g n evs g', create now j = Ok g /\ produces C next n g = Ok (evs, g') /\ List.length evs = n /\
      (n <= Z.to_nat num)%nat /\ (forall i, (i < n)%nat -> intr i = false) /\
      ((exists e, (n < Z.to_nat num)%nat /\ intr n = false /\ create_event C next g' = Er e /\ r = Er e /\
         Forall (fun q => w_fs w' (r_name q) = Some (unfinished (flux (g_cfg g)) evs q) /\
           (r_format q = FJson -> forall v, load (unfinished (flux (g_cfg g)) evs q) <> Ok v)) rs) \/
       (r = Ok (Z.of_nat n) /\ ((n < Z.to_nat num)%nat -> intr n = true) /\
         Forall (fun q => holds flux j g' (Z.of_nat n) (flux (g_cfg g)) evs (r_format q) (w_fs w' (r_name q))) rs)))).
Proof.
  intros now intr cfg w j num rs w' r Hp Hc Hj Hpr H.
  destruct (job_plan now intr cfg w j num rs Hp Hc) as (w1 & R1 & R2 & E). rewrite E in H. clear E.
  destruct (run_files C create next flux now j num intr (start rs)) as [ds r0] eqn:Er. injection H as <- <-.
  pose proof (plan_fits _ _ _ _ _ Hp) as Hf.
  assert (Hro : forall q, In q rs -> w_ro w1 (r_name q) = false).
  { intros q Hq. rewrite R1. apply (pl_writable _ _ _ _ _ Hp). exact Hq. }
  pose proof (pl_distinct _ _ _ _ _ Hp) as Hd.
  assert (Hnum : Z.of_nat (Z.to_nat num) <= 2 ^ 53).
  { destruct (pl_events _ _ _ _ _ Hp) as [[_ Hn]|[_ Hn]]; lia. }
  apply run_files_cases in Er; [|apply start_fits; exact Hf].
  assert (HF : forall P : request -> disk -> Prop, Forall2 P rs ds ->
    (forall m, ~ In m (map r_name rs) -> w_fs (put_back (combine (map r_name rs) ds) w1) m = w_fs w m) /\
    Forall (fun q => P q (w_fs (put_back (combine (map r_name rs) ds) w1) (r_name q))) rs).
  { intros P HP. destruct (put_back_all P rs ds w1 HP Hd Hro) as [Q1 Q2]. split; [|exact Q1].
    intros m Hm. rewrite Q2 by exact Hm. apply R2. exact Hm. }
  destruct Er as [(e & E1 & E2 & E3)|(g & n & evs & g' & fs2 & E1 & E2 & E3 & E4 & E5 & E6 & E7)].
  - destruct (HF (fun q d => d = Some (opened q))) as [Q1 Q2].
    { subst ds. unfold start. rewrite map_map. clear. induction rs; constructor; auto. }
    split; [exact Q1|]. left. exists e. auto.
  - destruct (Hpr g E1 n evs g' E2) as [Hev Hfx].
    unfold start in E6. rewrite map_map in E6.
    assert (Hsv : savable flux normal_dbl j g' (Z.of_nat n)).
    { split; [exact Hj|]. split; [exact Hfx|]. unfold is_long, long_min, long_max. lia. }
    destruct E7 as [(e & F1 & F2 & F3 & F4 & F5)|(F1 & F2 & F3)].
    + destruct (HF (fun q d => d = Some (unfinished (flux (g_cfg g)) evs q))) as [Q1 Q2].
      { subst ds. clear - E6 Hf. revert fs2 E6. induction Hf as [|q rs Hq Hf IH]; intros fs2 H; inversion H; subst; constructor; auto.
        apply received_text; assumption. }
      split; [exact Q1|]. right. exists g, n, evs, g'. split; [exact E1|]. split; [exact E2|]. split; [exact E3|].
      split; [exact E4|]. split; [exact E5|]. left. exists e. split; [exact F1|]. split; [exact F2|]. split; [exact F3|].
      split; [exact F4|]. eapply Forall_impl; [|exact Q2]. intros q Hq. split; [exact Hq|].
      intros Hjs. exact (unfinished_bad j g' (Z.of_nat n) _ evs q Hev Hsv Hjs).
    + destruct (HF (fun q d => holds flux j g' (Z.of_nat n) (flux (g_cfg g)) evs (r_format q) d)) as [Q1 Q2].
      { subst ds. clear - E6 Hf Hev Hsv. revert fs2 E6. induction Hf as [|q rs Hq Hf IH]; intros fs2 H; inversion H; subst; constructor.
        - exact (fresh_holds C flux j g' _ _ evs (tfile_of q, Some (opened q)) _ (start_fresh q Hq) Hev Hsv ltac:(eassumption)).
        - apply IH. assumption. }
      split; [exact Q1|]. right. exists g, n, evs, g'. split; [exact E1|]. split; [exact E2|]. split; [exact E3|].
      split; [exact E4|]. split; [exact E5|]. right. auto.
Qed.
End gen.
