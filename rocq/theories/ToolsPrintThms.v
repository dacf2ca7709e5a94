(** Theorems on marprint, the program that prints event files (C85). *)
From Coq Require Import List Ascii String ZArith Lia Bool.
From Coq Require Import Floats.SpecFloat.
From Verif Require Import Base Dbl Json Stream Pdg Event Output Main MarSum Report Tools MarSumThms ReportThms OutputThms EventThms.
Import ListNotations.
Local Open Scope Z_scope.

(** ** Specification *)

(** The text for a list of events, numbered from [k]. *)
Fixpoint numbered (k : Z) (evs : list event) : bytes :=
  match evs with [] => [] | ev :: r => print_event k ev ++ numbered (k + 1) r end.

Definition events (ls : list (list (spec_float * event))) : list event := map snd (List.concat ls).

Lemma numbered_app evs evs' : forall k, numbered k (evs ++ evs') = numbered k evs ++ numbered (k + Z.of_nat (List.length evs)) evs'.
Proof.
  induction evs as [|ev evs IH]; intros k; cbn [app numbered List.length]; [f_equal; lia|]. rewrite IH, <- app_assoc. do 3 f_equal. lia.
Qed.

(** ** The loop *)

Lemma loop_delivers r l : delivers r l -> forall fuel k, (List.length l < fuel)%nat -> 0 <= k -> k + Z.of_nat (List.length l) < 2 ^ 31 ->
  print_loop fuel r k = (numbered k (map snd l), Ok (k + Z.of_nat (List.length l))).
Proof.
  induction 1 as [r e r' H|r ev r' l H _ IH]; intros fuel k HF H0 HK.
  - destruct fuel; [cbn [List.length] in HF; lia|]. cbn [print_loop]. rewrite H. cbn [map numbered List.length]. f_equal. f_equal. lia.
  - cbn [List.length] in *. destruct fuel; [lia|]. cbn [print_loop]. rewrite H. destruct (k =? 2 ^ 31 - 1) eqn:E; [apply Z.eqb_eq in E; lia|].
    rewrite (IH fuel (k + 1)) by lia. cbn [map snd numbered]. f_equal. f_equal. lia.
Qed.

Lemma loop_too_many r l : delivers r l -> forall fuel k, (List.length l < fuel)%nat -> 0 <= k < 2 ^ 31 -> 2 ^ 31 <= k + Z.of_nat (List.length l) ->
  snd (print_loop fuel r k) = Er Undefined.
Proof.
  induction 1 as [r e r' H|r ev r' l H _ IH]; intros fuel k HF H0 HK; cbn [List.length] in *; [lia|].
  destruct fuel; [lia|]. cbn [print_loop]. rewrite H. destruct (k =? 2 ^ 31 - 1) eqn:E; [reflexivity|]. apply Z.eqb_neq in E.
  specialize (IH fuel (k + 1) ltac:(lia) ltac:(lia) ltac:(lia)). destruct (print_loop fuel r' (k + 1)) as [t v]. cbn [snd] in *. exact IH.
Qed.

Lemma files_events fuel fs ins ls more : Forall2 (event_file fs) ins ls -> Forall (fun l => (List.length l < fuel)%nat) ls -> forall k, 0 <= k ->
  k + Z.of_nat (List.length (List.concat ls)) < 2 ^ 31 ->
  print_files fuel fs (ins ++ more) k =
  let '(t, v) := print_files fuel fs more (k + Z.of_nat (List.length (List.concat ls))) in (numbered k (events ls) ++ t, v).
Proof.
  induction 1 as [|n l ins ls (r & E & D) _ IH]; intros HF k H0 HK.
  - cbn [app List.concat List.length events map numbered]. replace (k + Z.of_nat 0) with k by lia. destruct (print_files fuel fs more k). reflexivity.
  - inversion HF as [|? ? F1 F2]; subst. cbn [List.concat] in *. rewrite app_length in *. cbn [app print_files]. rewrite E.
    rewrite (loop_delivers r l D fuel k F1 H0 ltac:(lia)). rewrite (IH F2 (k + Z.of_nat (List.length l)) ltac:(lia) ltac:(lia)).
    replace (k + Z.of_nat (List.length l) + Z.of_nat (List.length (List.concat ls))) with (k + Z.of_nat (List.length l + List.length (List.concat ls))) by lia.
    destruct (print_files fuel fs more _) as [t v]. unfold events. cbn [List.concat]. rewrite map_app, numbered_app, map_length, <- app_assoc. reflexivity.
Qed.

(** ** Theorems *)

(** Every event of every file is printed once, in the order of the files and of the events in
    them, with numbers that go on from file to file. *)
Theorem C85_prints fuel self ins fs ls : ins <> [] -> Forall2 (event_file fs) ins ls -> Forall (fun l => (List.length l < fuel)%nat) ls ->
  Z.of_nat (List.length (List.concat ls)) < 2 ^ 31 ->
  marprint fuel self ins fs = (numbered 0 (events ls), Ok 0).
Proof.
  intros HN HE HF HL. pose proof (files_events fuel fs ins ls [] HE HF 0 ltac:(lia) ltac:(lia)) as H. rewrite app_nil_r in H.
  unfold marprint. destruct ins as [|i ins]; [congruence|]. rewrite H. cbn [print_files bind]. rewrite app_nil_r. reflexivity.
Qed.
Print Assumptions C85_prints.

(** The first file that cannot be opened ends the program, after the events of the files before
    it were printed; what comes after it is not looked at. *)
Theorem C85_stops fuel self ins n more fs ls e : Forall2 (event_file fs) ins ls -> Forall (fun l => (List.length l < fuel)%nat) ls ->
  Z.of_nat (List.length (List.concat ls)) < 2 ^ 31 -> ropen (fs n) = Er e ->
  marprint fuel self (ins ++ n :: more) fs = (numbered 0 (events ls), Er e).
Proof.
  intros HE HF HL HN. pose proof (files_events fuel fs ins ls (n :: more) HE HF 0 ltac:(lia) ltac:(lia)) as H. cbn [print_files] in H. rewrite HN in H.
  unfold marprint. destruct (ins ++ n :: more) eqn:E; [destruct ins; discriminate E|]. rewrite H, app_nil_r. reflexivity.
Qed.
Print Assumptions C85_stops.

(** A file whose reader gives some events and then fails. *)
Inductive breaks : rreader -> list event -> err -> Prop :=
| Bfail : forall r e, rnext r = Er e -> breaks r [] e
| Bevent : forall r ev r' l e, rnext r = Ok (true, ev, r') -> breaks r' l e -> breaks r (ev :: l) e.

Lemma loop_breaks r l e : breaks r l e -> forall fuel k, (List.length l < fuel)%nat -> 0 <= k -> k + Z.of_nat (List.length l) < 2 ^ 31 ->
  print_loop fuel r k = (numbered k l, Er e).
Proof.
  induction 1 as [r e H|r ev r' l e H _ IH]; intros fuel k HF H0 HK; (destruct fuel; [cbn [List.length] in HF; lia|]); cbn [print_loop]; rewrite H; [reflexivity|].
  cbn [List.length] in *. destruct (k =? 2 ^ 31 - 1) eqn:E; [apply Z.eqb_eq in E; lia|]. rewrite (IH fuel (k + 1)) by lia. reflexivity.
Qed.

(** So does one that becomes unreadable after some events, which are printed. *)
Theorem C85_broken fuel self ins n more fs ls r l e : Forall2 (event_file fs) ins ls -> Forall (fun l => (List.length l < fuel)%nat) ls ->
  ropen (fs n) = Ok r -> breaks r l e -> (List.length l < fuel)%nat -> Z.of_nat (List.length (List.concat ls) + List.length l) < 2 ^ 31 ->
  marprint fuel self (ins ++ n :: more) fs = (numbered 0 (events ls ++ l), Er e).
Proof.
  intros HE HF HO HB HL HK. pose proof (files_events fuel fs ins ls (n :: more) HE HF 0 ltac:(lia) ltac:(lia)) as H. cbn [print_files] in H. rewrite HO in H.
  rewrite (loop_breaks r l e HB fuel _ HL) in H by lia. unfold marprint. destruct (ins ++ n :: more) eqn:E; [destruct ins; discriminate E|]. rewrite H. cbn [bind].
  rewrite numbered_app. unfold events. rewrite map_length. reflexivity.
Qed.
Print Assumptions C85_broken.

(** An event file in JSON whose second event is a number. *)
Example C85_broken_case : let s := dump None (JObj [(b "events", JArr [event_json sample; JInt 3])]) in
  exists r, ropen (Some (CText s)) = Ok r /\ breaks r [sample] MarleyErr.
Proof.
  cbv zeta. eexists. split; [vm_compute; reflexivity|]. eapply Bevent; [vm_compute; reflexivity|]. apply Bfail. vm_compute. reflexivity.
Qed.

(** The events of one file are numbered with an int: a collection of 2^31 of them or more, all
    from one file, is beyond it. *)
Theorem C85_too_many_refuted fuel self n fs l : event_file fs n l -> (List.length l < fuel)%nat -> 2 ^ 31 <= Z.of_nat (List.length l) ->
  snd (marprint fuel self [n] fs) = Er Undefined.
Proof.
  intros (r & E & D) HF HL. unfold marprint. cbn [print_files]. rewrite E. pose proof (loop_too_many r l D fuel 0 HF ltac:(lia) ltac:(lia)) as H.
  destruct (print_loop fuel r 0) as [t v]. cbn [snd] in H. rewrite H. reflexivity.
Qed.
Print Assumptions C85_too_many_refuted.

(** The text for an event is the one that print_human_readable gives for the number, but for
    the word MARLEY. *)
Theorem C85_event num ev : 0 <= num ->
  exists t, print_event num ev = [nl] ++ b "*** Event " ++ t /\ print_human_readable num ev = [nl] ++ b "*** MARLEY Event " ++ t.
Proof.
  intros H. eexists. split; [reflexivity|]. unfold print_human_readable. destruct (0 <=? num) eqn:E; [|apply Z.leb_gt in E; lia].
  rewrite <- !app_assoc. reflexivity.
Qed.
Print Assumptions C85_event.

(** A file of [n] events with [m] particles in all takes 5 n + 3 m lines. *)
Theorem C85_lines evs : forall k, 0 <= k ->
  lines (numbered k evs) = (5 * List.length evs + 3 * list_sum (map (fun ev => List.length (e_init ev) + List.length (e_fin ev)) evs))%nat.
Proof.
  induction evs as [|ev evs IH]; intros k H; [reflexivity|]. cbn [numbered]. rewrite lines_app, IH by lia.
  assert (L : lines (print_event k ev) = lines (print_human_readable k ev)).
  { destruct (C85_event k ev H) as (t & -> & ->). rewrite !lines_app. reflexivity. }
  rewrite L, C83_event_lines. cbn [List.length map list_sum fold_right]. unfold list_sum. cbn [fold_right]. lia.
Qed.
Print Assumptions C85_lines.

(** Without a file name the program says how to use it. *)
Theorem C85_usage fuel self fs : marprint fuel self [] fs = (b "Usage: " ++ self ++ b " INPUT_FILE..." ++ [nl], Ok 0).
Proof. reflexivity. Qed.
Print Assumptions C85_usage.

Lemma loop_fuel m : forall f r k, (left_in r < m)%nat -> (left_in r < f)%nat ->
  print_loop f r k = print_loop m r k /\ snd (print_loop m r k) <> Er NoFuel.
Proof.
  induction m as [|m IH]; intros f r k H1 H2; [lia|]. destruct f as [|f]; [lia|]. cbn [print_loop].
  destruct (rnext r) as [[[ok ev] r']|e] eqn:E; [|split; [reflexivity|cbn [snd]; intros H; injection H as ->; exact (rnext_fuel r E)]].
  destruct ok; [|split; [reflexivity|discriminate]]. apply rnext_less in E. destruct (k =? 2 ^ 31 - 1); [split; [reflexivity|discriminate]|].
  destruct (IH f r' (k + 1) ltac:(lia) ltac:(lia)) as [-> N]. split; [reflexivity|]. destruct (print_loop m r' (k + 1)) as [t v]. exact N.
Qed.

Lemma pfiles_fuel fs ins : exists m, forall f k, (m <= f)%nat -> print_files f fs ins k = print_files m fs ins k /\ snd (print_files m fs ins k) <> Er NoFuel.
Proof.
  induction ins as [|n ins (m & IH)]; [exists O; intros; split; [reflexivity|discriminate]|].
  pose proof (open_fuel (fs n)) as N. destruct (ropen (fs n)) as [r|e] eqn:E.
  - exists (max (S (left_in r)) m). intros f k Hf. cbn [print_files]. rewrite E. set (M := max (S (left_in r)) m) in *.
    destruct (loop_fuel M f r k ltac:(lia) ltac:(lia)) as [-> N1]. destruct (print_loop M r k) as [t [k'|e]]; [|split; [reflexivity|exact N1]].
    destruct (IH f k' ltac:(lia)) as [-> N2]. destruct (IH M k' ltac:(lia)) as [-> _]. split; [reflexivity|].
    destruct (print_files m fs ins k') as [t' v]. exact N2.
  - exists O. intros f k _. cbn [print_files]. rewrite E. split; [reflexivity|cbn [snd]; intros H; apply N; congruence].
Qed.

(** Whatever the files hold, the program comes to an end. *)
Theorem C85_ends self args fs : exists m, forall fuel, (m <= fuel)%nat ->
  marprint fuel self args fs = marprint m self args fs /\ snd (marprint fuel self args fs) <> Er NoFuel.
Proof.
  destruct args as [|i ins]; [exists O; intros; split; [reflexivity|discriminate]|]. destruct (pfiles_fuel fs (i :: ins)) as (m & H).
  exists m. intros fuel Hf. unfold marprint. destruct (H fuel 0 Hf) as [-> N]. split; [reflexivity|].
  destruct (print_files m fs (i :: ins) 0) as [t v]. cbn [snd] in *. destruct v; cbn [bind]; [discriminate|exact N].
Qed.
Print Assumptions C85_ends.

(** The files of the case for marsum hold one event and two. *)
Example C85_case : Forall2 (event_file c77_store) [b "a"; b "b"] [[(toy_flux tt, sample)]; [(toy_flux tt, sample); (toy_flux tt, sample)]] /\
  marprint 3 (b "marprint") [b "a"; b "b"] c77_store = (print_event 0 sample ++ print_event 1 sample ++ print_event 2 sample, Ok 0) /\
  marprint 3 (b "marprint") [b "a"; b "x"; b "b"] c77_store = (print_event 0 sample, Er MarleyErr).
Proof.
  destruct C77_case as (_ & F & _). split; [exact F|]. split.
  - assert (HN : [b "a"; b "b"] <> []) by discriminate. rewrite (C85_prints 3 (b "marprint") _ _ _ HN F).
    + cbn [events List.concat app map snd numbered Z.add Pos.add Pos.succ]. rewrite app_nil_r. reflexivity.
    + repeat constructor.
    + cbn [List.concat app List.length]. lia.
  - inversion F as [|? ? ? ? F1 F2]; subst.
    change [b "a"; b "x"; b "b"] with ([b "a"] ++ b "x" :: [b "b"]). rewrite (C85_stops 3 (b "marprint") [b "a"] (b "x") [b "b"] c77_store [[(toy_flux tt, sample)]] MarleyErr); [cbn [events List.concat app map snd numbered]; rewrite app_nil_r; reflexivity|constructor; [exact F1|constructor]|repeat constructor|cbn [List.concat app List.length]; lia|reflexivity].
Qed.
