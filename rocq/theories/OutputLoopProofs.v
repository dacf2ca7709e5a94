(** Proofs about crashes, the event loop and chains of runs. *)
From Coq Require Import List Ascii String ZArith Bool Lia.
From Coq Require Import Floats.SpecFloat.
From Verif Require Import Base Dbl DigitsProofs DblProofs Json JsonSpec JsonProofs JsonNumProofs
  JsonExpProofs JsonRtProofs JsonExtraProofs Stream StreamProofs Pdg Event EventSpec EventProofs EventJsonProofs
  Output OutputSpec OutputProofs.
Import ListNotations.
Local Open Scope Z_scope.

(** ** Crashes *)

Definition grows (a : act) : Prop := match a with Trunc => False | _ => True end.

Lemma grow_prefix : forall l d s, Forall grows l -> apply_acts l (Some d) = Some s -> exists q, s = d ++ q.
Proof.
  induction l as [|a l IH]; intros d s Hl H.
  - injection H as <-. exists []. rewrite app_nil_r. reflexivity.
  - inversion Hl as [|? ? Ha Hl']; subst. destruct a as [| |t]; [|destruct Ha|].
    + exact (IH d s Hl' H).
    + change (apply_acts l (Some (d ++ t)) = Some s) in H. apply IH in H; [|exact Hl'].
      destruct H as (q & ->). exists (t ++ q). rewrite app_assoc. reflexivity.
Qed.

Lemma grow_some : forall l d, exists s, apply_acts l (Some d) = Some s.
Proof.
  induction l as [|a l IH]; intros d; [eexists; reflexivity|]. destruct a; apply IH.
Qed.

Lemma crash_prefix : forall l l', crash l l' -> Forall grows l -> forall d s, apply_acts l (Some d) = Some s ->
  exists p q, apply_acts l' (Some d) = Some p /\ s = p ++ q.
Proof.
  intros l l' H. induction H as [l|t p q l E|a l l' H IH]; intros Hg d s Hs.
  - destruct (grow_prefix l d s Hg Hs) as (q & ->). exists d, q. auto.
  - inversion Hg; subst. change (apply_acts l (Some (d ++ p ++ q)) = Some s) in Hs.
    apply grow_prefix in Hs; [|assumption]. destruct Hs as (q' & ->).
    exists (d ++ p), (q ++ q'). split; [reflexivity|]. rewrite <- !app_assoc. reflexivity.
  - inversion Hg as [|? ? Ha Hg']; subst. destruct a as [| |t]; [|destruct Ha|].
    + apply (IH Hg' d s). exact Hs.
    + apply (IH Hg' (d ++ t) s). exact Hs.
Qed.

Lemma write_event_grows : forall ev f f' a, write_event ev f = Ok (f', a) -> Forall grows a.
Proof.
  intros ev f f' a H. unfold write_event in H. destruct (t_format f); try discriminate H;
    injection H as <- <-; repeat constructor.
Qed.

Lemma write_many_grows : forall evs f f' a, write_many evs f = Ok (f', a) -> Forall grows a.
Proof.
  induction evs as [|ev evs IH]; intros f f' a H; cbn [write_many] in H.
  - injection H as <- <-. constructor.
  - destruct (write_event ev f) as [[f1 a1]|] eqn:E1; [|discriminate H]. cbn [bind] in H.
    destruct (write_many evs f1) as [[f2 a2]|] eqn:E2; [|discriminate H]. cbn [bind] in H.
    injection H as <- <-. apply Forall_app. split; [eapply write_event_grows; eassumption|eapply IH; eassumption].
Qed.

Section gen.
Variable C : Type.
Variable create : Z -> json -> res (generator C).
Variable next : C -> rng -> res (event * C * rng).
Variable flux : C -> spec_float.

Lemma close_grows : forall config g n f, Forall grows (close_file C flux config g n f).
Proof. intros. unfold close_file. destruct (t_format f); repeat constructor. Qed.

(** After a truncation the file is a prefix of what it would have become. *)
Lemma crash_trunc : forall pre post l' old s v, Forall grows post ->
  apply_acts (pre ++ Trunc :: post) old = Some s -> load_rest s = Ok (v, []) ->
  crash (pre ++ Trunc :: post) l' ->
  (exists l, crash pre l /\ apply_acts l' old = apply_acts l old) \/
  exists p, apply_acts l' old = Some p /\ (p = s \/ forall w, load p <> Ok w).
Proof.
  induction pre as [|a pre IH]; intros post l' old s v Hg Hs Hl Hc.
  - cbn [app] in *. inversion Hc as [l|t p q l E|a l l'' H]; subst.
    + left. exists []. split; [constructor|reflexivity].
    + right. change (apply_acts post (Some []) = Some s) in Hs.
      change (apply_acts (Trunc :: l'') old) with (apply_acts l'' (Some [])).
      destruct (crash_prefix _ _ H Hg [] s Hs) as (p & q & E1 & E2). exists p. split; [exact E1|].
      destruct q as [|c q]; [left; rewrite app_nil_r in E2; auto|right].
      intros w. eapply load_prefix_rejected; [exact Hl|exact E2|discriminate].
  - cbn [app] in *. inversion Hc as [l|t p q l E|a' l l'' H]; subst.
    + left. exists []. split; [constructor|reflexivity].
    + left. exists [Put p]. split; [econstructor; reflexivity|reflexivity].
    + change (apply_acts (pre ++ Trunc :: post) (apply_act old a) = Some s) in Hs.
      destruct (IH post l'' (apply_act old a) s v Hg Hs Hl H) as [(l & L1 & L2)|(p & P1 & P2)].
      * left. exists (a :: l). split; [apply cr_next; exact L1|exact L2].
      * right. exists p. auto.
Qed.

Lemma crash_nil : forall l, crash [] l -> l = [].
Proof. intros l H. inversion H. reflexivity. Qed.

Lemma crash_create : forall l s, crash [Create] l -> apply_acts l (Some s) = Some s.
Proof.
  intros l s H. inversion H as [|? ? ? ? E|? ? ? H1]; subst; [reflexivity|].
  apply crash_nil in H1. subst. reflexivity.
Qed.

(** A crash during a fresh session. *)
Lemma crash_fresh : forall P R P2 R2 se old ex a l', text_class P R -> text_class P2 R2 ->
  Forall (fun ev => all_floats P (event_json ev)) (ss_events se) ->
  savable flux P2 (ss_config se) (ss_gen se) (ss_count se) ->
  fresh_acts C flux se ex = Ok a -> crash a l' ->
  apply_acts l' old = old \/
  exists p, apply_acts l' old = Some p /\ ((forall w, load p <> Ok w) \/ apply_acts a old = Some p).
Proof.
  intros P R P2 R2 se old ex a l' H1 H2 Hev Hsv Ha Hc.
  assert (HF : exists s l, apply_acts a old = Some s /\
    closed_file flux R2 s l (ss_config se) (ss_gen se) (ss_count se)).
  { destruct (fresh_closed C flux P R P2 R2 se old H1 H2 Hev Hsv) as (s & l & E & _ & E2).
    unfold fresh_session in E.
    assert (Hx : fresh_acts C flux se (match old with Some _ => true | None => false end) = fresh_acts C flux se ex).
    { unfold fresh_acts. destruct (match old with Some _ => true | None => false end), ex; reflexivity. }
    rewrite Hx, Ha in E. cbn [bind] in E. injection E as E. exists s, l. auto. }
  destruct HF as (s & l & Hs & _ & gs & Hld & _). unfold fresh_acts in Ha.
  destruct (open_fresh (ss_indent se) ex) as (f & a0 & E & Ea & _).
  rewrite E in Ha. cbn [bind] in Ha. subst a0.
  destruct (write_many (ss_events se) f) as [[f' a']|] eqn:Ew; [|discriminate Ha]. cbn [bind] in Ha.
  injection Ha as Ha.
  change ([] ++ Trunc :: ([Put (start_json (ss_indent se))] ++ a' ++ close_session C flux se f') = a) in Ha.
  rewrite <- Ha in Hc, Hs |- *.
  assert (HG : Forall grows ([Put (start_json (ss_indent se))] ++ a' ++ close_session C flux se f')).
  { apply Forall_app. split; [repeat constructor|]. apply Forall_app.
    split; [eapply write_many_grows; eassumption|apply close_grows]. }
  destruct (crash_trunc [] _ l' old s _ HG Hs Hld Hc) as [(l0 & L1 & L2)|(p & P1 & P3)].
  - left. apply crash_nil in L1. subst l0. exact L2.
  - right. exists p. split; [exact P1|]. destruct P3 as [->|P3]; [right; exact Hs|left; exact P3].
Qed.

(** A resume that fails does nothing to the file. *)
Lemma resume_failed : forall now s f e a, resume C create now s f = (Er e, a) -> a = [].
Proof.
  intros now s f e a H. unfold resume in H. destruct (t_mode f), (t_format f); try (injection H; auto; fail).
  destruct (do j <- load s; _) as [[[g n] old]|e0]; [discriminate H|]. injection H; auto.
Qed.

Lemma resume_acts : forall now s f g n f' a, resume C create now s f = (Ok (g, n, f'), a) ->
  exists t1 t2, a = [Trunc; Put t1; Put t2; Create].
Proof.
  intros now s f g n f' a H. unfold resume in H. destruct (t_mode f), (t_format f); try discriminate H.
  destruct (do j <- load s; _) as [[[g1 n1] old]|e0]; [|discriminate H]. injection H; intros. eauto.
Qed.

Lemma resumed_shape : forall se s g n a, resumed_acts C create flux se s = Ok (g, n, a) ->
  exists post, a = [Create] ++ Trunc :: post /\ Forall grows post.
Proof.
  intros se s g n a H. unfold resumed_acts in H.
  change (open_file (b "json") (b "resume") false (ss_indent se) true true)
    with (Ok (mkt FJson Resume (ss_indent se) false dbl_zero, [Create])) in H. cbn [bind] in H.
  destruct (resume C create (ss_now se) s _) as [[[[g1 n1] f1]|e] a1] eqn:E; [|discriminate H]. cbn [bind] in H.
  destruct (write_many (ss_events se) f1) as [[f2 a2]|] eqn:Ew; [|discriminate H]. cbn [bind] in H.
  injection H as <- <- <-. apply resume_acts in E as (t1 & t2 & ->).
  eexists. split; [reflexivity|]. repeat (apply Forall_cons; [exact I|]).
  apply Forall_app. split; [eapply write_many_grows; eassumption|apply close_grows].
Qed.

Lemma crash_resumed : forall P R P2 R2 s l se se' g n a l', text_class P R -> text_class P2 R2 ->
  Forall (all_floats P) l ->
  closed_file flux R2 s l (ss_config se) (ss_gen se) (ss_count se) -> continues create R2 se se' ->
  Forall (fun ev => all_floats P (event_json ev)) (ss_events se') ->
  savable flux P2 (ss_config se') (ss_gen se') (ss_count se') ->
  resumed_acts C create flux se' s = Ok (g, n, a) -> crash a l' ->
  apply_acts l' (Some s) = Some s \/
  exists p, apply_acts l' (Some s) = Some p /\ ((forall w, load p <> Ok w) \/ apply_acts a (Some s) = Some p).
Proof.
  intros P R P2 R2 s l se se' g n a l' H1 H2 Hl Hcl Hco Hev Hsv Ha Hc.
  destruct (resumed_closed C create flux P R P2 R2 s l se se' H1 H2 Hl Hcl Hco Hev Hsv)
    as (g2 & n2 & s' & l2 & E1 & _ & _ & _ & gs & Hld & _).
  unfold resumed_session in E1. rewrite Ha in E1. cbn [bind] in E1. injection E1 as <- <- E1.
  destruct (resumed_shape _ _ _ _ _ Ha) as (post & -> & Hg).
  destruct (crash_trunc [Create] post l' (Some s) s' _ Hg E1 Hld Hc) as [(l0 & L1 & L2)|(p & P1 & P3)].
  - left. rewrite L2. apply crash_create. exact L1.
  - right. exists p. split; [exact P1|]. destruct P3 as [->|P3]; auto.
Qed.

Lemma crash_loses : forall se s g n a, resumed_acts C create flux se s = Ok (g, n, a) ->
  exists l', crash a l' /\ apply_acts l' (Some s) = Some [].
Proof.
  intros se s g n a H. destruct (resumed_shape _ _ _ _ _ H) as (post & -> & Hg).
  exists [Create; Trunc]. split; [|reflexivity]. apply cr_next. apply cr_next. constructor.
Qed.

(** ** The event loop *)

(** Each file receives the events, in order. *)
Definition received (evs : list event) (fd fd' : outfile) : Prop :=
  exists a, write_many evs (fst fd) = Ok (fst fd', a) /\ snd fd' = apply_acts a (snd fd).

Lemma write_all_received : forall ev fs fs', write_all ev fs = Ok fs' -> Forall2 (received [ev]) fs fs'.
Proof.
  induction fs as [|[f d] fs IH]; intros fs' H; cbn [write_all] in H.
  - injection H as <-. constructor.
  - destruct (write_event ev f) as [[f' a]|] eqn:E; [|discriminate H]. cbn [bind] in H.
    destruct (write_all ev fs) as [r|] eqn:Er; [|discriminate H]. cbn [bind] in H. injection H as <-.
    constructor; [|apply IH; reflexivity]. exists a. cbn [fst snd write_many]. rewrite E. cbn [bind].
    rewrite app_nil_r. auto.
Qed.

Lemma received_cons : forall ev evs fd fd1 fd2, received [ev] fd fd1 -> received evs fd1 fd2 ->
  received (ev :: evs) fd fd2.
Proof.
  intros ev evs fd fd1 fd2 (a & A1 & A2) (c & C1 & C2). cbn [write_many] in A1.
  destruct (write_event ev (fst fd)) as [[f a']|] eqn:E; [|discriminate A1]. cbn [bind] in A1.
  injection A1 as -> <-. rewrite app_nil_r in A2. exists (a' ++ c). cbn [write_many]. rewrite E. cbn [bind].
  rewrite C1. cbn [bind]. split; [reflexivity|]. rewrite apply_acts_app, <- A2. exact C2.
Qed.

Lemma received_nil : forall fs, Forall2 (received []) fs fs.
Proof. induction fs; constructor; auto. exists []. auto. Qed.

Lemma received_trans : forall ev evs fs fs1 fs2, Forall2 (received [ev]) fs fs1 ->
  Forall2 (received evs) fs1 fs2 -> Forall2 (received (ev :: evs)) fs fs2.
Proof.
  intros ev evs fs fs1 fs2 H. revert fs2. induction H; intros fs2 H2; inversion H2; subst; constructor; auto.
  eapply received_cons; eassumption.
Qed.

Lemma loop_spec : forall todo k intr count g fs n g' fs',
  loop C next todo k intr count g fs = Ok (n, g', fs') ->
  exists m evs, produces C next m g = Ok (evs, g') /\ List.length evs = m /\ (m <= todo)%nat /\
    n = count + Z.of_nat m /\ (forall j, (j < m)%nat -> intr (k + j)%nat = false) /\
    ((m < todo)%nat -> intr (k + m)%nat = true) /\ Forall2 (received evs) fs fs'.
Proof.
  induction todo as [|todo IH]; intros k intr count g fs n g' fs' H; cbn [loop] in H.
  - injection H as <- <- <-. exists 0%nat, []. repeat split; try reflexivity; try lia. apply received_nil.
  - destruct (intr k) eqn:Ei.
    + injection H as <- <- <-. exists 0%nat, []. repeat split; try reflexivity; try lia.
      * intros _. rewrite Nat.add_0_r. exact Ei.
      * apply received_nil.
    + destruct (create_event C next g) as [[ev g1]|] eqn:Ec; [|discriminate H]. cbn [bind] in H.
      destruct (write_all ev fs) as [fs1|] eqn:Ew; [|discriminate H]. cbn [bind] in H.
      destruct (IH _ _ _ _ _ _ _ _ H) as (m & evs & I1 & I2 & I3 & I4 & I5 & I6 & I7).
      exists (S m), (ev :: evs). cbn [produces]. rewrite Ec. cbn [bind]. rewrite I1. cbn [bind].
      split; [reflexivity|]. split; [cbn; lia|]. split; [lia|]. split; [lia|]. split; [|split].
      * intros [|j] Hj; [rewrite Nat.add_0_r; exact Ei|]. rewrite Nat.add_succ_r. apply (I5 j). lia.
      * intros Hm. rewrite Nat.add_succ_r. apply I6. lia.
      * eapply received_trans; [apply write_all_received; exact Ew|exact I7].
Qed.

(** The loop fails only if an event cannot be produced or written. *)
Lemma loop_progress : forall todo k intr count g fs evs g2, produces C next todo g = Ok (evs, g2) ->
  Forall (fun fd => t_format (fst fd) <> FRoot) fs ->
  exists r, loop C next todo k intr count g fs = Ok r.
Proof.
  induction todo as [|todo IH]; intros k intr count g fs evs g2 Hp Hf; cbn [loop]; [eauto|].
  destruct (intr k); [eauto|]. cbn [produces] in Hp.
  destruct (create_event C next g) as [[ev g1]|] eqn:Ec; [|discriminate Hp]. cbn [bind] in Hp |- *.
  destruct (produces C next todo g1) as [[evs' g3]|] eqn:Ep; [|discriminate Hp].
  assert (HW : exists fs1, write_all ev fs = Ok fs1 /\ Forall (fun fd => t_format (fst fd) <> FRoot) fs1).
  { clear - Hf. induction fs as [|[f d] fs IHf]; [exists []; split; [reflexivity|constructor]|].
    inversion Hf as [|? ? H1 H2]; subst. destruct (IHf H2) as (fs1 & E1 & E2). cbn [fst] in H1.
    cbn [write_all]. unfold write_event. destruct (t_format f) eqn:Ef; try congruence; cbn [bind]; rewrite E1;
      cbn [bind]; eexists; (split; [reflexivity|]); (constructor; [|exact E2]); cbn; congruence. }
  destruct HW as (fs1 & -> & Hf1). cbn [bind]. eapply IH; eassumption.
Qed.

Lemma generate_spec : forall config num old intr g fs n g' ds,
  generate C next flux config num old intr g fs = Ok (n, g', ds) ->
  exists m evs fs', produces C next m g = Ok (evs, g') /\ List.length evs = m /\
    n = old + Z.of_nat m /\ (m <= Z.to_nat (num - old))%nat /\
    (forall j, (j < m)%nat -> intr j = false) /\ (n < num -> intr m = true) /\
    Forall2 (received evs) (flux_all (flux (g_cfg g)) fs) fs' /\
    ds = close_all C flux config g' n fs'.
Proof.
  intros config num old intr g fs n g' ds H. unfold generate in H.
  destruct (loop _ _ _ _ _ _ _ _) as [[[n1 g1] fs1]|] eqn:E; [|discriminate H]. cbn [bind] in H.
  injection H as <- <- <-. apply loop_spec in E as (m & evs & E1 & E2 & E3 & E4 & E5 & E6 & E7).
  exists m, evs, fs1. split; [exact E1|]. split; [exact E2|]. split; [lia|]. split; [exact E3|].
  split; [exact E5|]. split; [|auto]. intros Hn. apply E6. lia.
Qed.

End gen.
