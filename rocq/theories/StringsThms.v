(** Theorems about the string helpers (C52). *)
From Coq Require Import List Ascii String ZArith Bool Lia.
From Verif Require Import Base Strings.
Import ListNotations.

(** ** Splitting *)

(** Joining pieces with a delimiter. *)
Fixpoint join (d : ascii) (l : list bytes) : bytes :=
  match l with
  | [] => []
  | [t] => t
  | t :: r => t ++ d :: join d r
  end.

Lemma until_app : forall d s, 
  match until d s with
  | (t, None) => s = t /\ ~ In d t
  | (t, Some r) => s = t ++ d :: r /\ ~ In d t
  end.
Proof.
  intros d s. induction s as [|c r IH]; [split; [reflexivity|tauto]|]. cbn [until].
  destruct (Ascii.eqb_spec c d) as [->|N]; unfold ceq.
  - rewrite Ascii.eqb_refl. split; [reflexivity|tauto].
  - destruct (Ascii.eqb_spec c d); [contradiction|]. destruct (until d r) as [t [k|]]; destruct IH as [-> H2];
      (split; [reflexivity|intros [->|H]; tauto]).
Qed.

Lemma until_none : forall d t, ~ In d t -> until d t = (t, None).
Proof.
  intros d t. induction t as [|c t IH]; intros H; [reflexivity|]. cbn [until]. unfold ceq.
  destruct (Ascii.eqb_spec c d) as [->|N]; [exfalso; apply H; left; reflexivity|].
  rewrite IH; [reflexivity|]. intros Hi. apply H. right. exact Hi.
Qed.

Lemma until_some : forall d t r, ~ In d t -> until d (t ++ d :: r) = (t, Some r).
Proof.
  intros d t r. induction t as [|c t IH]; intros H; cbn [until app].
  - unfold ceq. rewrite Ascii.eqb_refl. reflexivity.
  - unfold ceq. destruct (Ascii.eqb_spec c d) as [->|N]; [exfalso; apply H; left; reflexivity|].
    rewrite IH; [reflexivity|]. intros Hi. apply H. right. exact Hi.
Qed.

Lemma split_spec : forall n d s, (List.length s <= n)%nat ->
  let l := split_fuel n d s in
  Forall (fun t => ~ In d t) l /\
  ((join d l = s /\ (forall s', s <> s' ++ [d])) \/ (l <> [] /\ join d l ++ [d] = s)).
Proof.
  induction n as [|n IH]; intros d s Hn; cbv zeta.
  - destruct s; [|cbn [List.length] in Hn; lia]. cbn [split_fuel]. split; [constructor|]. left. split; [reflexivity|].
    intros s'. destruct s'; discriminate.
  - cbn [split_fuel]. destruct s as [|c s].
    { cbn [getline]. split; [constructor|]. left. split; [reflexivity|]. intros s'. destruct s'; discriminate. }
    unfold getline. pose proof (until_app d (c :: s)) as U. destruct (until d (c :: s)) as [t [r|]]; destruct U as [E H].
    + assert (Hr : (List.length r <= n)%nat).
      { apply (f_equal (@List.length _)) in E. rewrite app_length in E. cbn [List.length] in E, Hn. lia. }
      destruct (IH d r Hr) as [F1 F2]. split; [constructor; assumption|].
      destruct (split_fuel n d r) as [|t2 l] eqn:Es.
      * destruct F2 as [[F2 F3]|[F2 _]]; [|congruence]. right. split; [discriminate|]. cbn [join] in *. subst r. rewrite E. reflexivity.
      * change (join d (t :: t2 :: l)) with (t ++ d :: join d (t2 :: l)). destruct F2 as [[F2 F3]|[F2 F3]].
        -- left. destruct r as [|x r]; [exfalso; destruct n; discriminate Es|].
           split; [rewrite F2, E; reflexivity|]. intros s' Hs. rewrite E in Hs.
              destruct (exists_last (l := x :: r) ltac:(discriminate)) as (r0 & y & Er).
              rewrite Er in Hs. change (t ++ d :: r0 ++ [y]) with (t ++ (d :: r0) ++ [y]) in Hs.
              rewrite app_assoc in Hs. apply app_inj_tail in Hs as [_ ->]. apply (F3 r0). exact Er.
        -- right. split; [discriminate|]. rewrite <- app_assoc. cbn [app]. rewrite F3, E. reflexivity.
    + split; [constructor; [exact H|]|]. 
      * destruct n; [constructor|]. cbn [split_fuel getline]. constructor.
      * replace (split_fuel n d []) with (@nil bytes) by (destruct n; reflexivity). left. cbn [join].
        split; [symmetry; exact E|]. intros s' Hs. rewrite E in Hs. apply H. rewrite Hs. apply in_or_app. right. left. reflexivity.
Qed.

(** Splitting and joining: the pieces do not contain the delimiter, and joined
    they give the string back, but for one delimiter at its very end. *)
Theorem C52_split : forall d s,
  Forall (fun t => ~ In d t) (split_string d s) /\
  ((join d (split_string d s) = s /\ forall s', s <> s' ++ [d]) \/
   (split_string d s <> [] /\ join d (split_string d s) ++ [d] = s)).
Proof. intros d s. apply (split_spec (List.length s) d s). lia. Qed.
Print Assumptions C52_split.

Lemma split_fuel_more : forall n m d s, (List.length s <= n)%nat -> (List.length s <= m)%nat ->
  split_fuel n d s = split_fuel m d s.
Proof.
  induction n as [|n IH]; intros m d s Hn Hm.
  - destruct s; [|cbn [List.length] in Hn; lia]. destruct m; reflexivity.
  - destruct s as [|c s]; [destruct m; reflexivity|]. destruct m as [|m]; [cbn [List.length] in Hm; lia|].
    cbn [split_fuel]. unfold getline. pose proof (until_app d (c :: s)) as U.
    destruct (until d (c :: s)) as [t [r|]]; destruct U as [E _].
    + f_equal. apply (f_equal (@List.length _)) in E. rewrite app_length in E. cbn [List.length] in E, Hn, Hm. apply IH; lia.
    + f_equal. destruct n, m; reflexivity.
Qed.

(** Joining and splitting: any nonempty list of pieces without the delimiter whose
    last piece is not empty. *)
Theorem C52_join : forall d l t, Forall (fun t => ~ In d t) (l ++ [t]) -> t <> [] ->
  split_string d (join d (l ++ [t])) = l ++ [t].
Proof.
  intros d l t. unfold split_string. induction l as [|x l IH]; intros HF Ht.
  - cbn [app join]. destruct t as [|c t]; [congruence|]. cbn [List.length split_fuel]. inversion HF; subst.
    unfold getline. rewrite until_none by assumption. destruct (List.length t); reflexivity.
  - inversion HF; subst.
    assert (E : join d ((x :: l) ++ [t]) = x ++ d :: join d (l ++ [t])) by (destruct l; reflexivity).
    rewrite E. rewrite app_length. cbn [List.length]. rewrite Nat.add_succ_r. cbn [split_fuel].
    unfold getline. destruct (x ++ d :: join d (l ++ [t])) as [|c r] eqn:Es; [destruct x; discriminate Es|].
    rewrite <- Es, until_some by assumption. cbn [app]. f_equal.
    rewrite (split_fuel_more _ (List.length (join d (l ++ [t])))) by lia. apply IH; assumption.
Qed.
Print Assumptions C52_join.

Example C52_split_example : split_string ","%char (b "a,,b,") = [b "a"; []; b "b"] /\
  join ","%char (split_string ","%char (b "a,,b,")) ++ b "," = b "a,,b,".
Proof. split; reflexivity. Qed.

(** ** Trimming *)

Lemma trim_left_spec : forall d s, exists l, s = l ++ trim_left d s /\ forallb (among d) l = true /\
  match trim_left d s with [] => True | c :: _ => among d c = false end.
Proof.
  intros d s. induction s as [|c s IH]; [exists []; repeat split|]. destruct IH as (l & E & H1 & H2). cbn [trim_left].
  destruct (among d c) eqn:Ec.
  - exists (c :: l). cbn [app forallb]. rewrite Ec, H1. split; [congruence|]. split; [reflexivity|exact H2].
  - exists []. split; [reflexivity|]. split; [reflexivity|exact Ec].
Qed.

Lemma trim_right_spec : forall d s, exists r, s = trim_right d s ++ r /\ forallb (among d) r = true /\
  (forall t c, trim_right d s = t ++ [c] -> among d c = false).
Proof.
  intros d s. induction s as [|c s IH].
  - exists []. split; [reflexivity|]. split; [reflexivity|]. intros t c H. destruct t; discriminate H.
  - destruct IH as (r & E & H1 & H2). cbn [trim_right]. destruct (trim_right d s) as [|x u].
    + destruct (among d c) eqn:Ec.
      * exists (c :: r). cbn [app forallb] in *. rewrite Ec, H1. split; [congruence|]. split; [reflexivity|].
        intros t y H. destruct t; discriminate H.
      * exists r. cbn [app] in *. split; [congruence|]. split; [exact H1|]. intros t y H.
        destruct t as [|z t]; [injection H as <-; exact Ec|]. destruct t; discriminate H.
    + exists r. split; [cbn [app] in *; congruence|]. split; [exact H1|]. intros t y H.
      destruct t as [|z t]; [discriminate H|]. injection H as _ H. exact (H2 t y H).
Qed.

Lemma trim_ends : forall d s, exists l r, s = l ++ trim d s ++ r /\
  forallb (among d) l = true /\ forallb (among d) r = true /\
  (forall c t, trim d s = c :: t -> among d c = false) /\ (forall t c, trim d s = t ++ [c] -> among d c = false).
Proof.
  intros d s. destruct (trim_right_spec d s) as (r & E1 & H1 & H2).
  destruct (trim_left_spec d (trim_right d s)) as (l & E2 & H3 & H4). unfold trim.
  exists l, r. split; [rewrite app_assoc, <- E2; exact E1|]. split; [exact H3|]. split; [exact H1|]. split.
  - intros c t E. rewrite E in H4. exact H4.
  - intros t c E. apply (H2 (l ++ t)). rewrite <- app_assoc, <- E. exact E2.
Qed.

Lemma trim_middle : forall d l m r, forallb (among d) l = true -> forallb (among d) r = true ->
  (forall c t, m = c :: t -> among d c = false) -> (forall t c, m = t ++ [c] -> among d c = false) ->
  trim d (l ++ m ++ r) = m.
Proof.
  intros d l m r Hl Hr H1 H2. unfold trim.
  assert (R0 : trim_right d r = []).
  { clear - Hr. induction r as [|c r IH]; [reflexivity|]. cbn [forallb] in Hr. apply andb_true_iff in Hr as [Hc Hr].
    cbn [trim_right]. rewrite (IH Hr), Hc. reflexivity. }
  assert (RM : trim_right d (m ++ r) = m).
  { clear - R0 H2. induction m as [|c m IH]; [exact R0|]. cbn [app trim_right].
    rewrite IH; [|intros t y E; apply (H2 (c :: t)); rewrite E; reflexivity].
    destruct m; [rewrite (H2 [] c eq_refl)|]; reflexivity. }
  assert (LL : forall l, forallb (among d) l = true -> trim_left d l = []).
  { clear. induction l as [|c l IH]; intros H; [reflexivity|]. cbn [forallb] in H. apply andb_true_iff in H as [Hc H].
    cbn [trim_left]. rewrite Hc. exact (IH H). }
  assert (RL : trim_right d (l ++ m ++ r) = match m with [] => [] | _ => l ++ m end).
  { clear - RM Hl. induction l as [|c l IH]; cbn [app]; [rewrite RM; destruct m; reflexivity|].
    cbn [forallb] in Hl. apply andb_true_iff in Hl as [Hc Hl]. cbn [trim_right]. rewrite (IH Hl).
    destruct m as [|x m]; [rewrite Hc; reflexivity|]. destruct l; reflexivity. }
  rewrite RL. destruct m as [|x m]; [reflexivity|].
  clear - Hl H1. induction l as [|c l IH]; cbn [app trim_left]; [rewrite (H1 x m eq_refl); reflexivity|].
  cbn [forallb] in Hl. apply andb_true_iff in Hl as [Hc Hl]. rewrite Hc. exact (IH Hl).
Qed.

Lemma among_in : forall d c, among d c = true <-> In c d.
Proof.
  intros d c. unfold among, ceq. rewrite existsb_exists. split.
  - intros (x & Hx & E). apply Ascii.eqb_eq in E as ->. exact Hx.
  - intros H. exists c. split; [exact H|apply Ascii.eqb_refl].
Qed.

Lemma among_out : forall d c, among d c = false <-> ~ In c d.
Proof. intros d c. rewrite <- among_in. destruct (among d c); split; try congruence; tauto. Qed.

Lemma among_all : forall d l, forallb (among d) l = true <-> Forall (fun c => In c d) l.
Proof.
  intros d l. rewrite forallb_forall, Forall_forall. split; intros H c Hc; specialize (H c Hc);
    [apply among_in|apply among_in in H]; exact H.
Qed.

(** Trimming removes delimiters at the two ends and nothing else, and all of them. *)
Theorem C52_trim : forall d s, exists l r, s = l ++ trim d s ++ r /\
  Forall (fun c => In c d) l /\ Forall (fun c => In c d) r /\
  (forall c t, trim d s = c :: t -> ~ In c d) /\ (forall t c, trim d s = t ++ [c] -> ~ In c d).
Proof.
  intros d s. destruct (trim_ends d s) as (l & r & E & Hl & Hr & H1 & H2). exists l, r.
  split; [exact E|]. split; [apply among_all, Hl|]. split; [apply among_all, Hr|].
  split; intros; apply among_out; eauto.
Qed.
Print Assumptions C52_trim.

(** That determines the result. *)
Theorem C52_trim_unique : forall d l m r, Forall (fun c => In c d) l -> Forall (fun c => In c d) r ->
  (forall c t, m = c :: t -> ~ In c d) -> (forall t c, m = t ++ [c] -> ~ In c d) ->
  trim d (l ++ m ++ r) = m.
Proof.
  intros d l m r Hl Hr H1 H2. apply trim_middle; [apply among_all, Hl|apply among_all, Hr| |]; intros; apply among_out; eauto.
Qed.
Print Assumptions C52_trim_unique.

(** One-sided trimming leaves the other end alone. *)
Theorem C52_trim_sides : forall d s,
  (exists l, s = l ++ trim_left d s /\ Forall (fun c => In c d) l /\
     forall c t, trim_left d s = c :: t -> ~ In c d) /\
  (exists r, s = trim_right d s ++ r /\ Forall (fun c => In c d) r /\
     forall t c, trim_right d s = t ++ [c] -> ~ In c d).
Proof.
  intros d s. split.
  - destruct (trim_left_spec d s) as (l & E & Hl & H). exists l. split; [exact E|]. split; [apply among_all, Hl|].
    intros c t Et. rewrite Et in H. apply among_out, H.
  - destruct (trim_right_spec d s) as (r & E & Hr & H). exists r. split; [exact E|]. split; [apply among_all, Hr|].
    intros t c Et. apply among_out. eauto.
Qed.
Print Assumptions C52_trim_sides.

Lemma all_chars : forall P : ascii -> bool, (forall x0 x1 x2 x3 x4 x5 x6 x7, P (Ascii x0 x1 x2 x3 x4 x5 x6 x7) = true) ->
  forall c, P c = true.
Proof. intros P H [x0 x1 x2 x3 x4 x5 x6 x7]. apply H. Qed.

(** By default the delimiters are the six white space characters of C: the space
    and the codes 9 to 13. *)
Theorem C52_blanks : forall c, In c whitespace <-> (code c = 32 \/ 9 <= code c <= 13)%Z.
Proof.
  intros c. rewrite <- among_in.
  assert (E : Bool.eqb (among whitespace c) ((code c =? 32) || ((9 <=? code c) && (code c <=? 13)))%Z = true).
  { revert c. apply all_chars. intros [] [] [] [] [] [] [] []; reflexivity. }
  apply Bool.eqb_prop in E. rewrite E, orb_true_iff, andb_true_iff, Z.eqb_eq, !Z.leb_le. tauto.
Qed.
Print Assumptions C52_blanks.

Example C52_trim_example : trim whitespace (b "  a b ") = b "a b" /\ trim whitespace (b "   ") = [].
Proof. split; reflexivity. Qed.

(** ** Padding *)

(** Padding adds copies of the padding character on one side, and exactly enough. *)
Theorem C52_pad : forall s n c,
  (exists k, pad_left s n c = repeat c k ++ s /\ List.length (pad_left s n c) = Nat.max n (List.length s)) /\
  (exists k, pad_right s n c = s ++ repeat c k /\ List.length (pad_right s n c) = Nat.max n (List.length s)).
Proof.
  intros s n c. unfold pad_left, pad_right. destruct (Nat.ltb_spec (List.length s) n) as [H|H].
  - split; exists (n - List.length s)%nat; (split; [reflexivity|]); rewrite app_length, repeat_length; lia.
  - split; exists 0%nat; cbn [repeat app]; rewrite ?app_nil_r; (split; [reflexivity|]); lia.
Qed.
Print Assumptions C52_pad.

Example C52_pad_example : pad_left (b "7") 3 "0"%char = b "007" /\ pad_right (b "1234") 3 "0"%char = b "1234".
Proof. split; reflexivity. Qed.

(** ** Letter case *)

(** The letters, in order. *)
Definition small : bytes := b "abcdefghijklmnopqrstuvwxyz".
Definition capital : bytes := b "ABCDEFGHIJKLMNOPQRSTUVWXYZ".

Lemma case_char : forall c,
  (In c small \/ In c capital -> exists i x y, nth_error small i = Some x /\ nth_error capital i = Some y /\
     (c = x \/ c = y) /\ lower c = x /\ upper c = y) /\
  (~ In c small -> ~ In c capital -> lower c = c /\ upper c = c).
Proof.
  intros c.
  assert (E : (if among small c || among capital c then
     existsb (fun i => match nth_error small i, nth_error capital i with
        | Some x, Some y => (ceq c x || ceq c y) && ceq (lower c) x && ceq (upper c) y
        | _, _ => false end) (seq 0 26)
     else ceq (lower c) c && ceq (upper c) c) = true).
  { revert c. apply all_chars. intros [] [] [] [] [] [] [] []; reflexivity. }
  destruct (among small c) eqn:Es; [|destruct (among capital c) eqn:Ec]; cbn [orb] in E.
  3: { apply among_out in Es, Ec. split; [tauto|]. intros _ _. unfold ceq in E. apply andb_true_iff in E as [E1 E2].
       apply Ascii.eqb_eq in E1, E2. split; assumption. }
  1: apply among_in in Es. 2: apply among_in in Ec.
  all: (split; [|tauto]; intros _; apply existsb_exists in E as (i & _ & E);
    destruct (nth_error small i) as [x|] eqn:Ex; [|discriminate E];
    destruct (nth_error capital i) as [y|] eqn:Ey; [|discriminate E];
    exists i, x, y; unfold ceq in E; apply andb_true_iff in E as [E E3]; apply andb_true_iff in E as [E1 E2];
    apply Ascii.eqb_eq in E2, E3; apply orb_true_iff in E1 as [E1|E1]; apply Ascii.eqb_eq in E1; tauto).
Qed.

(** Case conversion exchanges each letter for its other form and changes nothing
    else: no character is added, dropped or moved. *)
Theorem C52_case : forall s i c, nth_error s i = Some c ->
  List.length (to_lowercase s) = List.length s /\ List.length (to_uppercase s) = List.length s /\
  (forall k x y, nth_error small k = Some x -> nth_error capital k = Some y -> c = x \/ c = y ->
     nth_error (to_lowercase s) i = Some x /\ nth_error (to_uppercase s) i = Some y) /\
  (~ In c small -> ~ In c capital ->
     nth_error (to_lowercase s) i = Some c /\ nth_error (to_uppercase s) i = Some c).
Proof.
  intros s i c H. unfold to_lowercase, to_uppercase. rewrite !map_length.
  rewrite !(map_nth_error _ _ _ H). split; [reflexivity|]. split; [reflexivity|].
  destruct (case_char c) as [H1 H2]. split.
  - intros k x y Hx Hy Hc.
    destruct H1 as (k' & x' & y' & Hx' & Hy' & Hc' & -> & ->).
    { destruct Hc as [-> | ->]; [left|right]; eapply nth_error_In; eassumption. }
    assert (N : NoDup (small ++ capital)).
    { assert (E : nodup ascii_dec (small ++ capital) = small ++ capital) by (vm_compute; reflexivity).
      rewrite <- E. apply NoDup_nodup. }
    assert (P : nth_error (small ++ capital) k = Some x /\ nth_error (small ++ capital) (26 + k) = Some y /\
                nth_error (small ++ capital) k' = Some x' /\ nth_error (small ++ capital) (26 + k') = Some y').
    { assert (K : forall l (z : ascii) j, nth_error l j = Some z -> (j < List.length l)%nat)
        by (intros l z j E; apply nth_error_Some; congruence).
      pose proof (K _ _ _ Hx) as K1. pose proof (K _ _ _ Hx') as K2.
      rewrite (nth_error_app1 small capital K1), (nth_error_app1 small capital K2). rewrite !nth_error_app2 by (change (List.length small) with 26%nat; lia).
      change (List.length small) with 26%nat. replace (26 + k - 26)%nat with k by lia. replace (26 + k' - 26)%nat with k' by lia.
      split; [exact Hx|]. split; [exact Hy|]. split; [exact Hx'|exact Hy']. }
    destruct P as (P1 & P2 & P3 & P4). rewrite NoDup_nth_error in N.
    assert (B : (k < 26 /\ k' < 26)%nat).
    { split; apply (nth_error_Some small); congruence. }
    assert (L : List.length (small ++ capital) = 52%nat) by reflexivity.
    assert (k = k').
    { destruct Hc as [-> | ->], Hc' as [Hc' | Hc']; subst.
      - apply N; [rewrite L; lia|congruence].
      - assert (k = 26 + k')%nat by (apply N; [rewrite L; lia|congruence]). lia.
      - assert (26 + k = k')%nat by (apply N; [rewrite L; lia|congruence]). lia.
      - assert (26 + k = 26 + k')%nat by (apply N; [rewrite L; lia|congruence]). lia. }
    subst k'. split; congruence.
  - intros N1 N2. destruct (H2 N1 N2) as [-> ->]. split; reflexivity.
Qed.
Print Assumptions C52_case.

Example C52_case_example : to_lowercase (b "Fermi-Dirac [z]") = b "fermi-dirac [z]" /\ to_uppercase (b "az{") = b "AZ{".
Proof. split; reflexivity. Qed.
