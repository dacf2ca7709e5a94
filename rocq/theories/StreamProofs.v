(** Lemmas on formatted input: printed numbers are read back, and a read that
    leaves bytes behind does not depend on what follows them. *)
From Coq Require Import List Ascii String ZArith Bool Lia.
From Coq Require Import Floats.SpecFloat.
From Verif Require Import Base Dbl DigitsProofs DblProofs Stream.
Import ListNotations.
Local Open Scope Z_scope.

(** What may follow a number so that it is read entirely. *)
Definition stops (t : bytes) : Prop := match t with c :: _ => is_space c = true | [] => True end.

Definition fin_dbl (x : spec_float) : Prop := is_finite_dbl x = true /\ valid_dbl x = true.

Lemma space_cases : forall c, is_space c = true ->
  is_digit c = false /\ ceq c "-"%char = false /\ ceq c "+"%char = false /\
  ceq c "."%char = false /\ ceq c "e"%char = false /\ ceq c "E"%char = false.
Proof.
  intros c H. unfold is_space, is_digit, ceq in *.
  repeat split.
  - apply orb_prop in H. apply andb_false_iff.
    destruct H as [H|H]; [apply andb_prop in H as [H1 H2]|]; rewrite ?Z.leb_le, ?Z.eqb_eq in *;
      left; apply Z.leb_gt; lia.
  - destruct (Ascii.eqb_spec c "-"%char) as [->|]; [discriminate H|reflexivity].
  - destruct (Ascii.eqb_spec c "+"%char) as [->|]; [discriminate H|reflexivity].
  - destruct (Ascii.eqb_spec c "."%char) as [->|]; [discriminate H|reflexivity].
  - destruct (Ascii.eqb_spec c "e"%char) as [->|]; [discriminate H|reflexivity].
  - destruct (Ascii.eqb_spec c "E"%char) as [->|]; [discriminate H|reflexivity].
Qed.

Lemma digit_cases : forall c, is_digit c = true ->
  is_space c = false /\ ceq c "-"%char = false /\ ceq c "+"%char = false /\
  ceq c "."%char = false /\ ceq c "e"%char = false /\ ceq c "E"%char = false.
Proof.
  intros c H. unfold is_space, is_digit, ceq in *.
  apply andb_prop in H as [H1 H2]. rewrite ?Z.leb_le in *.
  split; [|repeat split].
  - apply orb_false_iff; split; [apply andb_false_iff; right; apply Z.leb_gt; lia|apply Z.eqb_neq; lia].
  - destruct (Ascii.eqb_spec c "-"%char) as [->|]; [exfalso; apply H1; reflexivity|reflexivity].
  - destruct (Ascii.eqb_spec c "+"%char) as [->|]; [exfalso; apply H1; reflexivity|reflexivity].
  - destruct (Ascii.eqb_spec c "."%char) as [->|]; [exfalso; apply H1; reflexivity|reflexivity].
  - destruct (Ascii.eqb_spec c "e"%char) as [->|]; [exfalso; apply H2; reflexivity|reflexivity].
  - destruct (Ascii.eqb_spec c "E"%char) as [->|]; [exfalso; apply H2; reflexivity|reflexivity].
Qed.

Lemma skip_sp_app : forall w s, forallb is_space w = true -> skip_sp (w ++ s) = skip_sp s.
Proof.
  induction w as [|c w IH]; intros s H; [reflexivity|].
  cbn [forallb] in H. apply andb_prop in H as [H1 H2]. cbn [app skip_sp]. rewrite H1. auto.
Qed.

Lemma skip_sp_idem : forall s, skip_sp (skip_sp s) = skip_sp s.
Proof.
  induction s as [|c s IH]; [reflexivity|]. cbn [skip_sp].
  destruct (is_space c) eqn:E; [exact IH|]. cbn [skip_sp]. rewrite E. reflexivity.
Qed.

Lemma stops_digits : forall t, stops t -> match t with c :: _ => is_digit c = false | [] => True end.
Proof. intros [|c t] H; [exact I|]. apply space_cases in H. tauto. Qed.

(** ** Integers *)

Lemma rd_num_show : forall lo hi w z t, forallb is_space w = true ->
  lo <= z <= hi -> stops t ->
  rd_num lo hi (w ++ show_int z ++ t) = Some (z, t).
Proof.
  intros lo hi w z t Hw Hz Ht. unfold rd_num. rewrite skip_sp_app by exact Hw.
  unfold show_int. destruct (z <? 0) eqn:E.
  - apply Z.ltb_lt in E. cbn [app]. cbn [skip_sp].
    change (is_space "-") with false. cbn iota. cbn [take_sign].
    change (ceq "-" "-") with true. cbn iota.
    rewrite span_digits_app by (try apply digits_all; try apply stops_digits; try assumption; lia).
    destruct (digits_hd_digit (- z) ltac:(lia)) as (c & r & Hd & _).
    rewrite Hd at 1. cbn iota. rewrite digits_val_digits by lia. rewrite Z.opp_involutive.
    replace ((z <? lo) || (hi <? z)) with false; [reflexivity|].
    symmetry. apply orb_false_iff. rewrite !Z.ltb_ge. lia.
  - apply Z.ltb_ge in E.
    destruct (digits_hd_digit z ltac:(lia)) as (c & r & Hd & Hc).
    destruct (digit_cases c Hc) as (C1 & C2 & C3 & _).
    rewrite Hd at 1. cbn [app skip_sp]. rewrite C1. cbn [take_sign]. rewrite C2, C3.
    change (c :: r ++ t) with ((c :: r) ++ t). rewrite <- Hd.
    rewrite span_digits_app by (try apply digits_all; try apply stops_digits; try assumption; lia).
    rewrite Hd at 1. cbn iota. rewrite digits_val_digits by lia.
    replace ((z <? lo) || (hi <? z)) with false; [reflexivity|].
    symmetry. apply orb_false_iff. rewrite !Z.ltb_ge. lia.
Qed.

(** ** Doubles *)

Lemma skip_sp_digit : forall c r, is_digit c = true -> skip_sp (c :: r) = c :: r.
Proof. intros c r H. apply digit_cases in H as (H & _). cbn [skip_sp]. rewrite H. reflexivity. Qed.

Lemma take_sign_digit : forall c r, is_digit c = true -> take_sign (c :: r) = (false, c :: r).
Proof. intros c r H. apply digit_cases in H as (_ & H1 & H2 & _). cbn [take_sign]. rewrite H1, H2. reflexivity. Qed.

Lemma skip_sign : forall w s c r, forallb is_space w = true -> is_digit c = true ->
  take_sign (skip_sp (w ++ sign_str s ++ c :: r)) = (s, c :: r).
Proof.
  intros w s c r Hw Hc. rewrite skip_sp_app by exact Hw. destruct s; cbn [sign_str app].
  - cbn [skip_sp]. change (is_space "-") with false. cbn iota. cbn [take_sign].
    change (ceq "-" "-") with true. reflexivity.
  - rewrite skip_sp_digit, take_sign_digit by exact Hc. reflexivity.
Qed.

Lemma rd_exp_show : forall x t, stops t ->
  rd_exp ("e"%char :: show_exp x ++ t) = Some (x, t).
Proof.
  intros x t Ht. unfold rd_exp. change (ceq "e" "e" || ceq "e" "E") with true. cbn iota.
  set (ds := if Z.abs x <? 10 then "0"%char :: digits (Z.abs x) else digits (Z.abs x)).
  assert (Hds : forallb is_digit ds = true).
  { unfold ds. destruct (Z.abs x <? 10); [cbn [forallb]; change (is_digit "0") with true; cbn [andb]|];
      apply digits_all; lia. }
  assert (Hv : digits_val ds = Z.abs x).
  { unfold ds. destruct (Z.abs x <? 10); [|apply digits_val_digits; lia].
    rewrite digits_val_cons. change (undig "0") with 0. rewrite digits_val_digits; lia. }
  assert (Hn : ds <> []).
  { unfold ds. destruct (Z.abs x <? 10); [discriminate|].
    destruct (digits_hd_digit (Z.abs x) ltac:(lia)) as (c & r & -> & _). discriminate. }
  assert (Hs : show_exp x = (if x <? 0 then "-"%char else "+"%char) :: ds) by reflexivity.
  rewrite Hs. cbn [app].
  assert (HT : take_sign ((if x <? 0 then "-"%char else "+"%char) :: ds ++ t) = (x <? 0, ds ++ t)).
  { destruct (x <? 0); reflexivity. }
  rewrite HT, span_digits_app by (try assumption; apply stops_digits; assumption).
  clear Hs HT. clearbody ds. destruct ds as [|c r]; [congruence|]. rewrite Hv.
  do 2 f_equal. destruct (x <? 0) eqn:E; [apply Z.ltb_lt in E|apply Z.ltb_ge in E]; lia.
Qed.

(** Reading a mantissa of the form d.ddd with an exponent. *)
Lemma rd_dbl_sci : forall w s c fp x t, forallb is_space w = true ->
  is_digit c = true -> forallb is_digit fp = true -> stops t ->
  is_finite_dbl (dec_to_dbl s (digits_val (c :: fp)) (x - Z.of_nat (List.length fp))) = true ->
  rd_dbl (w ++ sign_str s ++ c :: "."%char :: fp ++ "e"%char :: show_exp x ++ t)
  = Some (dec_to_dbl s (digits_val (c :: fp)) (x - Z.of_nat (List.length fp)), t).
Proof.
  intros w s c fp x t Hw Hc Hf Ht Hfin. unfold rd_dbl.
  rewrite skip_sign by assumption.
  change (c :: "."%char :: fp ++ "e"%char :: show_exp x ++ t)
    with ([c] ++ "."%char :: fp ++ "e"%char :: show_exp x ++ t).
  rewrite span_digits_app by (cbn [forallb]; rewrite ?Hc; reflexivity).
  change (ceq "." ".") with true. cbn iota.
  rewrite span_digits_app by (try assumption; reflexivity).
  cbn [app]. rewrite rd_exp_show by exact Ht. cbn [obind].
  rewrite Hfin. reflexivity.
Qed.

Lemma rd_dbl_show : forall w x t, forallb is_space w = true -> fin_dbl x -> stops t ->
  rd_dbl (w ++ show_e17 x ++ t) = Some (x, t).
Proof.
  intros w x t Hw [Hf Hv] Ht. destruct x as [s|s| |s m e]; try discriminate Hf.
  - unfold show_e17. rewrite <- !app_assoc.
    change (b "0." ++ repeat "0"%char 17 ++ b "e+00" ++ t)
      with ("0"%char :: "."%char :: repeat "0"%char 17 ++ "e"%char :: show_exp 0 ++ t).
    rewrite rd_dbl_sci; try assumption; try reflexivity.
    all: change (digits_val ("0"%char :: repeat "0"%char 17)) with 0; destruct s; reflexivity.
  - assert (Hb : bounded 53 1024 m e = true) by exact Hv.
    cbn [show_e17].
    pose proof (dec_roundtrip 18 s m e ltac:(lia) Hb) as HR.
    pose proof (to_dec_spec 18 (dnum m e) (dden e) ltac:(lia) (dnum_pos m e) (dden_pos e)) as HT.
    destruct (to_dec 18 (dnum m e) (dden e)) as [D X]. destruct HT as [HD _].
    assert (HL : List.length (digits D) = 18%nat) by (apply (digits_length D 18); [lia|exact HD]).
    assert (HD0 : 0 <= D) by (pose proof (Z.pow_pos_nonneg 10 (18 - 1)); lia).
    pose proof (digits_all D HD0) as HA. pose proof (digits_val_digits D HD0) as HV.
    destruct (digits D) as [|c fp]; [discriminate HL|].
    cbn [forallb] in HA. apply andb_prop in HA as [Hc Hfp].
    injection HL as HL.
    rewrite <- !app_assoc. cbn [dot1 app].
    assert (HE : dec_to_dbl s (digits_val (c :: fp)) (X - Z.of_nat (List.length fp)) = S754_finite s m e).
    { rewrite HV, HL, <- HR. f_equal. lia. }
    rewrite rd_dbl_sci; try assumption.
    + rewrite HE. reflexivity.
    + rewrite HE. reflexivity.
Qed.

(** ** Reads that leave bytes behind do not look further *)

Lemma skip_sp_more : forall p q, skip_sp p <> [] -> skip_sp (p ++ q) = skip_sp p ++ q.
Proof.
  induction p as [|c p IH]; intros q H; [exfalso; apply H; reflexivity|].
  cbn [app skip_sp] in *. destruct (is_space c); [auto|reflexivity].
Qed.

Lemma take_sign_more : forall p q, p <> [] -> take_sign (p ++ q) = (fst (take_sign p), snd (take_sign p) ++ q).
Proof.
  intros [|c p] q H; [congruence|]. cbn [app take_sign].
  destruct (ceq c "-"); [reflexivity|]. destruct (ceq c "+"); reflexivity.
Qed.

Lemma span_digits_more : forall p q d c t, span_digits p = (d, c :: t) ->
  span_digits (p ++ q) = (d, c :: t ++ q).
Proof.
  induction p as [|a p IH]; intros q d c t H; [discriminate H|].
  cbn [app span_digits] in *. destruct (is_digit a).
  - destruct (span_digits p) as [d' t'] eqn:E. injection H as <- Ht. subst t'.
    rewrite (IH q d' c t eq_refl). reflexivity.
  - injection H as <- <- <-. reflexivity.
Qed.

Lemma rd_num_more : forall lo hi p q z c t, rd_num lo hi p = Some (z, c :: t) ->
  rd_num lo hi (p ++ q) = Some (z, c :: t ++ q).
Proof.
  intros lo hi p q z c t H. unfold rd_num in *.
  destruct (skip_sp p) as [|a r] eqn:E; [discriminate H|].
  rewrite skip_sp_more by (rewrite E; discriminate). rewrite E.
  rewrite take_sign_more by discriminate.
  destruct (take_sign (a :: r)) as [neg r1]. cbn [fst snd].
  destruct (span_digits r1) as [ds t1] eqn:Es. destruct ds as [|d ds]; [discriminate H|].
  destruct (((if neg then - digits_val (d :: ds) else digits_val (d :: ds)) <? lo)
    || (hi <? (if neg then - digits_val (d :: ds) else digits_val (d :: ds)))) eqn:Eb; [discriminate H|].
  injection H as <- ->. rewrite (span_digits_more _ q _ _ _ Es). rewrite Eb. reflexivity.
Qed.

Lemma rd_exp_more : forall p q z c t, rd_exp p = Some (z, c :: t) ->
  rd_exp (p ++ q) = Some (z, c :: t ++ q).
Proof.
  intros p q z c t H. unfold rd_exp in *. destruct p as [|a r]; [discriminate H|]. cbn [app].
  destruct (ceq a "e" || ceq a "E").
  - destruct r as [|a' r']; [discriminate H|].
    rewrite take_sign_more by discriminate.
    destruct (take_sign (a' :: r')) as [neg r1]. cbn [fst snd].
    destruct (span_digits r1) as [ds t1] eqn:Es. destruct ds as [|d ds]; [discriminate H|].
    injection H as <- ->. rewrite (span_digits_more _ q _ _ _ Es). reflexivity.
  - injection H as <- <- <-. reflexivity.
Qed.

Lemma span_digits_nil_rest : forall p d, span_digits p = (d, []) -> d = p.
Proof.
  induction p as [|a p IH]; intros d H; [injection H as <-; reflexivity|].
  cbn [span_digits] in H. destruct (is_digit a); [|discriminate H].
  destruct (span_digits p) as [d' t'] eqn:E. injection H as <- ->. f_equal. auto.
Qed.

Lemma rd_dbl_more : forall p q x c t, rd_dbl p = Some (x, c :: t) ->
  rd_dbl (p ++ q) = Some (x, c :: t ++ q).
Proof.
  intros p q x c t H. unfold rd_dbl in *.
  destruct (skip_sp p) as [|a r] eqn:E; [discriminate H|].
  rewrite skip_sp_more by (rewrite E; discriminate). rewrite E.
  rewrite take_sign_more by discriminate.
  destruct (take_sign (a :: r)) as [neg r0]. cbn [fst snd].
  destruct (span_digits r0) as [ip r1] eqn:E1.
  destruct r1 as [|c1 r1].
  { destruct (ip ++ []) as [|y ys]; [discriminate H|]. cbn [rd_exp obind] in H.
    destruct (is_finite_dbl _) in H; discriminate H. }
  rewrite (span_digits_more _ q _ _ _ E1).
  destruct (ceq c1 ".") eqn:Edot.
  - destruct (span_digits r1) as [fp r2] eqn:E2.
    destruct r2 as [|c2 r2].
    { destruct (ip ++ fp) as [|y ys]; [discriminate H|]. cbn [rd_exp obind] in H.
      destruct (is_finite_dbl _) in H; discriminate H. }
    rewrite (span_digits_more _ q _ _ _ E2).
    destruct (ip ++ fp) as [|y ys]; [discriminate H|].
    destruct (rd_exp (c2 :: r2)) as [[ex t1]|] eqn:Ee; [|discriminate H]. cbn [obind] in H.
    destruct (is_finite_dbl _) eqn:Ef in H; [|discriminate H]. injection H as <- ->.
    change (c2 :: r2 ++ q) with ((c2 :: r2) ++ q). rewrite (rd_exp_more _ q _ _ _ Ee).
    cbn [obind]. rewrite Ef. reflexivity.
  - destruct (ip ++ []) as [|y ys]; [discriminate H|].
    destruct (rd_exp (c1 :: r1)) as [[ex t1]|] eqn:Ee; [|discriminate H]. cbn [obind] in H.
    destruct (is_finite_dbl _) eqn:Ef in H; [|discriminate H]. injection H as <- ->.
    change (c1 :: r1 ++ q) with ((c1 :: r1) ++ q). rewrite (rd_exp_more _ q _ _ _ Ee).
    cbn [obind]. rewrite Ef. reflexivity.
Qed.

Lemma rd_char_more : forall p q c t, rd_char p = Some (c, t) -> rd_char (p ++ q) = Some (c, t ++ q).
Proof.
  intros p q c t H. unfold rd_char in *. destruct (skip_sp p) as [|a r] eqn:E; [discriminate H|].
  rewrite skip_sp_more by (rewrite E; discriminate). rewrite E. injection H as <- <-. reflexivity.
Qed.

(** Nothing is read from white space only. *)
Lemma skip_sp_blank : forall w, forallb is_space w = true -> skip_sp w = [].
Proof. intros w H. rewrite <- (app_nil_r w), skip_sp_app by exact H. reflexivity. Qed.

Lemma rd_num_blank : forall lo hi w, forallb is_space w = true -> rd_num lo hi w = None.
Proof. intros. unfold rd_num. rewrite skip_sp_blank by assumption. reflexivity. Qed.

Lemma rd_dbl_blank : forall w, forallb is_space w = true -> rd_dbl w = None.
Proof. intros. unfold rd_dbl. rewrite skip_sp_blank by assumption. reflexivity. Qed.

(** Values read fit their types. *)
Lemma rd_num_range : forall lo hi s z t, rd_num lo hi s = Some (z, t) -> lo <= z <= hi.
Proof.
  intros lo hi s z t H. unfold rd_num in H. destruct (take_sign (skip_sp s)) as [neg r].
  destruct (span_digits r) as [[|d ds] t1]; [discriminate H|].
  destruct (_ || _) eqn:E in H; [discriminate H|]. injection H as <- <-.
  apply orb_false_iff in E as [E1 E2]. rewrite Z.ltb_ge in *. lia.
Qed.

Lemma rd_dbl_fin : forall s x t, rd_dbl s = Some (x, t) -> fin_dbl x.
Proof.
  intros s x t H. unfold rd_dbl in H. destruct (take_sign (skip_sp s)) as [neg r].
  destruct (span_digits r) as [ip r1].
  destruct (match r1 with c :: r' => if ceq c "." then span_digits r' else ([], r1) | [] => ([], r1) end)
    as [fp r2].
  destruct (ip ++ fp) as [|y ys]; [discriminate H|].
  destruct (rd_exp r2) as [[ex t1]|]; [|discriminate H]. cbn [obind] in H.
  destruct (is_finite_dbl _) eqn:Ef in H; [|discriminate H]. injection H as <- _.
  split; [exact Ef|]. apply rnd64_valid. apply scale_den_pos; lia.
Qed.

(** Reads consume bytes. *)
Lemma skip_sp_len : forall s, (List.length (skip_sp s) <= List.length s)%nat.
Proof. induction s as [|c s IH]; [auto|]. cbn [skip_sp]. destruct (is_space c); cbn [List.length] in *; lia. Qed.

Lemma take_sign_len : forall s, (List.length (snd (take_sign s)) <= List.length s)%nat.
Proof.
  intros [|c s]; [auto|]. cbn [take_sign]. destruct (ceq c "-"); [cbn; lia|].
  destruct (ceq c "+"); cbn; lia.
Qed.

Lemma span_digits_len : forall s d t, span_digits s = (d, t) -> (List.length s = List.length d + List.length t)%nat.
Proof.
  induction s as [|c s IH]; intros d t H; [injection H as <- <-; reflexivity|].
  cbn [span_digits] in H. destruct (is_digit c).
  - destruct (span_digits s) as [d' t'] eqn:E. injection H as <- <-. cbn [List.length]. rewrite (IH _ _ eq_refl). lia.
  - injection H as <- <-. reflexivity.
Qed.

Lemma rd_num_len : forall lo hi s z t, rd_num lo hi s = Some (z, t) -> (List.length t < List.length s)%nat.
Proof.
  intros lo hi s z t H. unfold rd_num in H.
  pose proof (skip_sp_len s). pose proof (take_sign_len (skip_sp s)).
  destruct (take_sign (skip_sp s)) as [neg r]. cbn [snd] in *.
  destruct (span_digits r) as [ds t1] eqn:E. apply span_digits_len in E.
  destruct ds as [|d ds]; [discriminate H|]. destruct (_ || _) in H; [discriminate H|].
  injection H as <- <-. cbn [List.length] in *. lia.
Qed.
