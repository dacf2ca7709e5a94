(** The real transform computes the discrete Fourier transform, and the cosine transform
    built on it computes its sum. *)
From Coq Require Import List Reals Bool Arith Lra Lia.
From Verif Require Import Base QuadThms Fft FftMath FftStep FftRadix FftGeneral FftTable.
Import ListNotations.
Open Scope R_scope.

Lemma packed_ext L y z r : (forall t, y t = z t) -> packed L y r = packed L z r.
Proof.
  intros H. assert (C : forall q, dcos L y q = dcos L z q) by (intros q; apply sumn_ext; intros t _; rewrite H; reflexivity).
  assert (S : forall q, dsin L y q = dsin L z q) by (intros q; unfold dsin; f_equal; apply sumn_ext; intros t _; rewrite H; reflexivity).
  unfold packed. rewrite !C, !S. reflexivity.
Qed.

(** The blocks of the data between two steps. *)
Definition blocks (X : nat -> R) (l2 ido : nat) (D : arr) : Prop := forall mm r, (mm < l2)%nat -> (r < ido)%nat ->
  D (S (mm * ido + r)) = packed ido (fun t => X (mm + l2 * t)%nat) r.

Lemma blocks_input X ip ido l1 D : blocks X (l1 * ip) ido D -> input_ok ip ido l1 (fun k t => X (k + l1 * t)%nat) D.
Proof.
  intros H i k j Hi Hk Hj. unfold at3. replace (S j - 1)%nat with j by lia.
  replace (i + ido * (k - 1 + l1 * j))%nat with (S ((k - 1 + l1 * j) * ido + (i - 1))) by (rewrite (Nat.mul_comm ido); set (q := ((k - 1 + l1 * j) * ido)%nat); lia).
  rewrite H.
  - apply packed_ext. intros t. unfold part. f_equal. ring.
  - apply Nat.lt_le_trans with (l1 * S j)%nat; [rewrite Nat.mul_succ_r; lia|apply Nat.mul_le_mono_l; lia].
  - lia.
Qed.
Lemma blocks_output X ip ido l1 D ch : (1 <= ip)%nat -> (1 <= ido)%nat -> step_ok ip ido l1 (fun k t => X (k + l1 * t)%nat) ch D -> blocks X l1 (ip * ido) D.
Proof.
  intros Hip Hido [H _] mm r Hm Hr. assert (B : (mm * (ip * ido) + r < ido * ip * l1)%nat).
  { apply Nat.lt_le_trans with (S mm * (ip * ido))%nat; [cbn [Nat.mul]; lia|]. replace (ido * ip * l1)%nat with (l1 * (ip * ido))%nat by ring. apply Nat.mul_le_mono_r. lia. }
  rewrite H by lia. unfold target. replace (S (mm * (ip * ido) + r) - 1)%nat with (r + mm * (ip * ido))%nat by lia.
  rewrite Nat.div_add, Nat.mod_add by nia. rewrite Nat.div_small, Nat.mod_small by exact Hr. reflexivity.
Qed.

Definition outside (n : nat) (a b : arr) : Prop := forall x, ~ (1 <= x <= n)%nat -> a x = b x.
Lemma outside_refl n a : outside n a a. Proof. intros x _. reflexivity. Qed.
Lemma outside_trans n a b c : outside n a b -> outside n b c -> outside n a c.
Proof. intros H1 H2 x Hx. rewrite H1, H2 by exact Hx. reflexivity. Qed.

(** One turn of the loop over the factors. *)
Definition holds (X : nat -> R) (n l2 ido : nat) (c0 ch0 : arr) (s : nat * nat * nat * arr * arr) : Prop :=
  let '(na, l, iw, c, ch) := s in
  l = l2 /\ iw = (n + 1 - ido)%nat /\ outside n c c0 /\ outside n ch ch0 /\ (na = 1%nat /\ blocks X l2 ido c \/ na = 0%nat /\ blocks X l2 ido ch).

Lemma table_shift n ip ido (wa : arr) j x : (1 <= j)%nat -> (1 <= ip)%nat -> (1 <= ido)%nat -> (ip * ido <= n)%nat -> (1 <= x)%nat ->
  from wa (n + 1 - ip * ido + (j - 1) * ido) x = from (from wa (n + 1 - ip * ido)) ((j - 1) * ido + 1) x.
Proof. intros Hj Hip Hido Hn Hx. unfold from. f_equal. set (u := ((j - 1) * ido)%nat). set (v := (ip * ido)%nat) in *. lia. Qed.

Lemma step_holds X n ip ido l1 c0 ch0 wa s : n = (l1 * ip * ido)%nat -> (1 <= l1)%nat -> (1 <= ido)%nat ->
  (ip = 2 \/ ip = 4 \/ Nat.odd ip = true /\ 3 <= ip /\ Nat.odd ido = true)%nat ->
  table_ok ip ido (fun j => from wa (n + 1 - ip * ido + (j - 1) * ido)) ->
  holds X n (l1 * ip) ido c0 ch0 s -> holds X n l1 (ip * ido) c0 ch0 (rfftf1_step n ip wa s).
Proof.
  intros En Hl1 Hido Hip Hw. destruct s as [[[[na l] iw] c] ch]. intros (-> & -> & Oc & Och & HD). unfold rfftf1_step.
  assert (Hip2 : (2 <= ip)%nat) by lia.
  replace (l1 * ip / ip)%nat with l1 by (symmetry; apply Nat.div_mul; lia).
  replace (n / (l1 * ip))%nat with ido by (rewrite En, (Nat.mul_comm _ ido); symmetry; apply Nat.div_mul; nia).
  assert (Hle : (ip * ido <= n)%nat) by (rewrite En; nia).
  assert (Eiw : (n + 1 - ido - (ip - 1) * ido = n + 1 - ip * ido)%nat).
  { replace (ip * ido)%nat with ((ip - 1) * ido + ido)%nat by (replace ip with (S (ip - 1)) at 2 by lia; cbn [Nat.mul]; lia). lia. }
  rewrite Eiw. set (iw := (n + 1 - ip * ido)%nat) in *. set (Z := fun k t => X (k + l1 * t)%nat).
  assert (EN : (ido * ip * l1)%nat = n) by (rewrite En; ring).
  assert (G : forall radf, (forall a d, input_ok ip ido l1 Z a -> step_ok ip ido l1 Z d (radf a d)) ->
    holds X n l1 (ip * ido) c0 ch0 (if negb (Nat.eqb (1 - na) 0) then ((1 - na)%nat, l1, iw, radf ch c, ch) else ((1 - na)%nat, l1, iw, c, radf c ch))).
  { intros radf HR. destruct HD as [[-> HD]|[-> HD]]; apply blocks_input in HD; cbn [Nat.sub Nat.eqb negb]; unfold holds.
    - destruct (HR c ch HD) as [R1 R2]. rewrite EN in R2. split; [reflexivity|]. split; [reflexivity|]. split; [exact Oc|]. split; [exact (outside_trans n _ _ _ R2 Och)|]. right. split; [reflexivity|]. apply (blocks_output X ip ido l1 _ ch); [lia|exact Hido|]. apply HR. exact HD.
    - destruct (HR ch c HD) as [R1 R2]. rewrite EN in R2. split; [reflexivity|]. split; [reflexivity|]. split; [exact (outside_trans n _ _ _ R2 Oc)|]. split; [exact Och|]. left. split; [reflexivity|]. apply (blocks_output X ip ido l1 _ c); [lia|exact Hido|]. apply HR. exact HD. }
  set (w := fun j => from wa (iw + (j - 1) * ido)) in *.
  assert (W1 : from wa iw = w 1%nat) by (unfold w; f_equal; lia).
  assert (W2 : from wa (iw + ido) = w 2%nat) by (unfold w; f_equal; lia).
  assert (W3 : from wa (iw + ido + ido) = w 3%nat) by (unfold w; f_equal; lia).
  assert (W4 : from wa (iw + ido + ido + ido) = w 4%nat) by (unfold w; f_equal; lia).
  cbv zeta. rewrite W2, W3, W4.
  destruct (Nat.eqb_spec ip 4) as [->|N4]; [apply (G (fun a d => radf4 ido l1 a d (from wa iw) (w 2%nat) (w 3%nat))); intros a d Ha; rewrite W1; apply radf4_ok; assumption|].
  destruct (Nat.eqb_spec ip 2) as [->|N2]; [apply (G (fun a d => radf2 ido l1 a d (from wa iw))); intros a d Ha; rewrite W1; apply radf2_ok; assumption|].
  destruct Hip as [Hip|[Hip|(Ho & H3 & Hoi)]]; [contradiction|contradiction|].
  destruct (Nat.eqb_spec ip 3) as [->|N3]; [apply (G (fun a d => radf3 ido l1 a d (from wa iw) (w 2%nat))); intros a d Ha; rewrite W1; apply radf3_ok; assumption|].
  destruct (Nat.eqb_spec ip 5) as [->|N5]; [apply (G (fun a d => radf5 ido l1 a d (from wa iw) (w 2%nat) (w 3%nat) (w 4%nat))); intros a d Ha; rewrite W1; apply radf5_ok; assumption|].
  apply Nat.odd_spec in Ho. destruct Ho as (mm & Em). apply Nat.odd_spec in Hoi. destruct Hoi as (hh & Eh).
  assert (Hw' : table_ok ip ido (fun j => from (from wa iw) ((j - 1) * ido + 1))).
  { intros j p Hj Hp H2. destruct (Hw j p Hj Hp H2) as [T1 T2]. unfold w, iw in T1, T2. unfold iw. rewrite <- !table_shift by lia. split; assumption. }
  assert (HR : forall a d, input_ok ip ido l1 Z (if Nat.eqb ido 1 then d else a) -> step_ok ip ido l1 Z a (fst (radfg ido ip l1 (ido * l1) a d (from wa iw))) /\ outside n (snd (radfg ido ip l1 (ido * l1) a d (from wa iw))) d).
  { intros a d Ha. rewrite <- EN. apply (radfg_ok ip ido l1 mm hh Z); (assumption || lia). }
  assert (R0 : forall a d, input_ok ip ido l1 Z (if Nat.eqb ido 1 then d else a) -> outside n a c0 -> outside n d ch0 ->
    holds X n l1 (ip * ido) c0 ch0 (let '(c, ch) := radfg ido ip l1 (ido * l1) a d (from wa iw) in (1%nat, l1, iw, c, ch))).
  { intros a d Ha Oa Od. destruct (HR a d Ha) as [[R1 R2] R3]. destruct (radfg ido ip l1 (ido * l1) a d (from wa iw)) as [a' d']. cbn [fst snd] in R1, R2, R3. rewrite EN in R2. unfold holds.
    split; [reflexivity|]. split; [reflexivity|]. split; [exact (outside_trans n _ _ _ R2 Oa)|]. split; [exact (outside_trans n _ _ _ R3 Od)|]. left. split; [reflexivity|]. apply (blocks_output X ip ido l1 _ a); [lia|exact Hido|]. split; [exact R1|]. rewrite EN. exact R2. }
  assert (R1 : forall a d, input_ok ip ido l1 Z (if Nat.eqb ido 1 then d else a) -> outside n a ch0 -> outside n d c0 ->
    holds X n l1 (ip * ido) c0 ch0 (let '(ch, c) := radfg ido ip l1 (ido * l1) a d (from wa iw) in (0%nat, l1, iw, c, ch))).
  { intros a d Ha Oa Od. destruct (HR a d Ha) as [[R1 R2] R3]. destruct (radfg ido ip l1 (ido * l1) a d (from wa iw)) as [a' d']. cbn [fst snd] in R1, R2, R3. rewrite EN in R2. unfold holds.
    split; [reflexivity|]. split; [reflexivity|]. split; [exact (outside_trans n _ _ _ R3 Od)|]. split; [exact (outside_trans n _ _ _ R2 Oa)|]. right. split; [reflexivity|]. apply (blocks_output X ip ido l1 _ a); [lia|exact Hido|]. split; [exact R1|]. rewrite EN. exact R2. }
  destruct HD as [[-> HD]|[-> HD]]; apply blocks_input in HD; destruct (Nat.eqb_spec ido 1) as [E1|E1]; cbn [Nat.sub Nat.eqb negb]; [apply R1|apply R0|apply R0|apply R1]; assumption.
Qed.

Lemma odd_product l : (forall f, In f l -> Nat.odd f = true) -> Nat.odd (product l) = true.
Proof. induction l as [|f l IH]; intros H; [reflexivity|]. rewrite product_cons, Nat.odd_mul, (H f (or_introl eq_refl)). apply IH. intros g Hg. apply H. right. exact Hg. Qed.
Lemma good_tail fs pre ip post : good_factors fs -> fs = pre ++ ip :: post -> (ip = 2 \/ ip = 4 \/ Nat.odd ip = true /\ 3 <= ip /\ Nat.odd (product post) = true)%nat.
Proof.
  intros (ev & od & -> & G1 & G2) E. assert (HI : In ip (ev ++ od)) by (rewrite E; apply in_or_app; right; left; reflexivity).
  apply in_app_or in HI. destruct HI as [HI|HI]; [destruct (G1 ip HI); tauto|]. destruct (G2 ip HI) as [O1 O2]. right. right. split; [exact O1|]. split; [exact O2|].
  apply odd_product. intros f Hf. destruct (In_dec Nat.eq_dec f od) as [I1|I1]; [apply G2; exact I1|]. exfalso.
  revert pre E. induction ev as [|e ev IH]; intros pre E.
  - cbn [app] in E. apply I1. rewrite E. apply in_or_app. right. right. exact Hf.
  - destruct pre as [|a pre]; cbn [app] in E; injection E as E1 E2.
    + subst e. destruct (G1 ip (or_introl eq_refl)) as [-> | ->]; discriminate.
    + apply (IH (fun g Hg => G1 g (or_intror Hg)) pre E2).
Qed.

Lemma steps_hold n fs wa c0 ch0 : good_factors fs -> product fs = n -> table_good n fs wa -> forall post pre, fs = pre ++ post ->
  holds (fun t => c0 (S t)) n (product pre) (product post) c0 ch0 (fold_right (fun ip s => rfftf1_step n ip wa s) (1%nat, n, n, c0, ch0) post).
Proof.
  intros HG HP HT. pose proof (good_two fs HG) as H2. induction post as [|ip post IH]; intros pre E.
  - rewrite app_nil_r in E. subst pre. cbn [fold_right]. unfold holds. change (product []) with 1%nat. split; [symmetry; exact HP|]. split; [lia|]. split; [apply outside_refl|]. split; [apply outside_refl|]. left. split; [reflexivity|].
    intros mm r Hm Hr. assert (r = 0%nat) by lia. subst r. rewrite packed_0, dcos_1. f_equal. lia.
  - cbn [fold_right]. rewrite product_cons.
    assert (Hpre : (1 <= product pre)%nat) by (apply product_pos; intros f Hf; apply H2; rewrite E; apply in_or_app; left; exact Hf).
    assert (Hpost : (1 <= product post)%nat) by (apply product_pos; intros f Hf; apply H2; rewrite E; apply in_or_app; right; right; exact Hf).
    apply step_holds; try assumption.
    + rewrite <- HP, E, product_app, product_cons. ring.
    + exact (good_tail fs pre ip post HG E).
    + exact (HT pre ip post E).
    + rewrite <- product_snoc. apply IH. rewrite <- app_assoc. exact E.
Qed.

Lemma rfftf_ok n c ch wa ifac fs : (2 <= n)%nat -> ifac 2%nat = length fs -> stored ifac fs -> product fs = n -> good_factors fs -> table_good n fs wa ->
  let r := rfftf n c ch wa ifac in
  (forall q, (q < n)%nat -> fst r (S q) = packed n (fun t => c (S t)) q) /\ outside n (fst r) c /\ outside n (snd r) ch.
Proof.
  intros Hn HL HS HP HG HT r. unfold rfftf in r. destruct (Nat.eqb_spec n 1) as [?|_]; [lia|].
  assert (EM : map (fun k1 => ifac (length fs - k1 + 3)%nat) (upto 1 (length fs) 1) = rev fs).
  { rewrite upto_seq. replace (S (length fs) - 1)%nat with (length fs) by lia. apply (nth_ext _ _ 0%nat 0%nat); [rewrite map_length, seq_length, rev_length; reflexivity|]. rewrite map_length, seq_length. intros i Hi.
    rewrite (nth_indep _ 0%nat (ifac (length fs - 0 + 3)%nat)) by (rewrite map_length, seq_length; exact Hi). rewrite (map_nth (fun k1 => ifac (length fs - k1 + 3)%nat) _ 0%nat), seq_nth by exact Hi.
    rewrite rev_nth by exact Hi. replace (length fs - (1 + i))%nat with (length fs - S i)%nat by lia. apply HS. lia. }
  assert (EF : forall l s, fold_left (fun s k1 => rfftf1_step n (ifac (length fs - k1 + 3)%nat) wa s) l s = fold_left (fun s ip => rfftf1_step n ip wa s) (map (fun k1 => ifac (length fs - k1 + 3)%nat) l) s).
  { induction l as [|k l IH]; intros s; [reflexivity|]. cbn [fold_left map]. apply IH. }
  assert (HH := steps_hold n fs wa c ch HG HP HT fs [] eq_refl). change (product []) with 1%nat in HH. rewrite HP in HH.
  rewrite <- fold_left_rev_right, rev_involutive in HH || rewrite <- (rev_involutive fs), fold_left_rev_right in HH.
  rewrite <- EM, <- EF in HH. unfold r. clear r. cbv zeta. rewrite HL.
  set (st := fold_left _ _ _) in *. destruct st as [[[[na l] iw] c'] ch']. destruct HH as (_ & _ & Oc & Och & HD).
  destruct HD as [[-> HD]|[-> HD]]; cbn [Nat.eqb fst snd].
  - split; [|split; assumption]. intros q Hq. pose proof (HD 0%nat q ltac:(lia) Hq) as E. cbn [Nat.mul Nat.add] in E. rewrite E. apply packed_ext. intros t. do 2 f_equal. lia.
  - split; [|split].
    + intros q Hq. pose proof (HD 0%nat q ltac:(lia) Hq) as E. cbn [Nat.mul Nat.add] in E. transitivity (ch' (S q)).
      * apply (run_target ch').
        -- intros s Hs a. apply in_map_iff in Hs. destruct Hs as (i & <- & _). reflexivity.
        -- left. rewrite map_map. cbn [fst set]. rewrite map_id. apply In_upto1. lia.
      * rewrite E. apply packed_ext. intros t. do 2 f_equal. lia.
    + intros x Hx. rewrite run_frame; [apply Oc; exact Hx|]. rewrite map_map. cbn [fst set]. rewrite map_id. rewrite In_upto1. exact Hx.
    + exact Och.
Qed.
