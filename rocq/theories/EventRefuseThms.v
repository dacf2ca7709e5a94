(** C07: JSON that does not hold an event is refused. *)
From Coq Require Import List Ascii String ZArith Bool Lia.
From Coq Require Import Floats.SpecFloat.
From Verif Require Import Base Dbl Json Pdg Event.
Import ListNotations.
Local Open Scope Z_scope.

Lemma has_at k j : has_key k j = true -> exists v, at_key k j = Ok v.
Proof. unfold has_key, at_key. destruct j as [ | | | | | | l]; try discriminate. intros H. destruct (obj_get k l); [eexists; reflexivity|discriminate H]. Qed.

(** A number, or an integer, under a key of an object. *)
Definition holds_number (l : list (bytes * json)) (k : string) : Prop := exists v, obj_get (b k) l = Some v /\ snd (to_double v) = true.
Definition holds_integer (l : list (bytes * json)) (k : string) : Prop := exists v, obj_get (b k) l = Some v /\ snd (to_long v) = true.

Lemma double_err k j e : json_double k j = Er e -> e = MarleyErr.
Proof.
  unfold json_double. destruct (has_key k j) eqn:H; [|congruence]. destruct (has_at k j H) as [v ->]. cbn [bind]. destruct (to_double v) as [x ok]. destruct ok; congruence.
Qed.
Lemma integer_err k j e : json_integer k j = Er e -> e = MarleyErr.
Proof.
  unfold json_integer. destruct (has_key k j) eqn:H; [|congruence]. destruct (has_at k j H) as [v ->]. cbn [bind]. destruct (to_long v) as [x ok]. destruct ok; congruence.
Qed.
Lemma double_ok k j x : json_double (b k) j = Ok x -> exists l, j = JObj l /\ holds_number l k.
Proof.
  unfold json_double. destruct (has_key (b k) j) eqn:H; [|discriminate]. destruct j as [ | | | | | | l]; try discriminate H. unfold at_key. destruct (obj_get (b k) l) as [v|] eqn:G; [|discriminate].
  cbn [bind]. destruct (to_double v) as [y ok] eqn:T. destruct ok; [|discriminate]. intros _. exists l. split; [reflexivity|]. exists v. rewrite T. split; [exact G|reflexivity].
Qed.
Lemma double_has k l : holds_number l k -> exists x, json_double (b k) (JObj l) = Ok x.
Proof. intros (v & G & T). unfold json_double, has_key, at_key. rewrite G. cbn [bind]. destruct (to_double v) as [y ok]. cbn [snd] in T. subst ok. eexists. reflexivity. Qed.
Lemma integer_ok k j x : json_integer (b k) j = Ok x -> exists l, j = JObj l /\ holds_integer l k.
Proof.
  unfold json_integer. destruct (has_key (b k) j) eqn:H; [|discriminate]. destruct j as [ | | | | | | l]; try discriminate H. unfold at_key. destruct (obj_get (b k) l) as [v|] eqn:G; [|discriminate].
  cbn [bind]. destruct (to_long v) as [y ok] eqn:T. destruct ok; [|discriminate]. intros _. exists l. split; [reflexivity|]. exists v. rewrite T. split; [exact G|reflexivity].
Qed.
Lemma integer_has k l : holds_integer l k -> exists x, json_integer (b k) (JObj l) = Ok x.
Proof. intros (v & G & T). unfold json_integer, has_key, at_key. rewrite G. cbn [bind]. destruct (to_long v) as [y ok]. cbn [snd] in T. subst ok. eexists. reflexivity. Qed.

Ltac err H := repeat match type of H with
  | bind ?r _ = Er _ => let E := fresh "E" in destruct r eqn:E; cbn [bind] in H; [|assert (X : forall (a b : err), @Er unit a = Er b -> a = b) by congruence;
      first [apply double_err in E | apply integer_err in E]; congruence] end.

Lemma particle_err j e : particle_of_json j = Er e -> e = MarleyErr.
Proof. unfold particle_of_json. intros H. err H. discriminate H. Qed.
Lemma particles_err js e : particles_of_json js = Er e -> e = MarleyErr.
Proof.
  induction js as [|j js IH]; cbn [particles_of_json]; [discriminate|]. destruct j as [ | | | | | | l]; try congruence.
  destruct (particle_of_json (JObj l)) eqn:E; cbn [bind]; [|intros H; apply particle_err in E; congruence].
  destruct (particles_of_json js); cbn [bind]; [discriminate|]. intros H. apply IH. congruence.
Qed.
Lemma jparticles_err k j e : json_particles k j = Er e -> e = MarleyErr.
Proof.
  unfold json_particles. destruct (has_key k j) eqn:H; [|congruence]. destruct (has_at k j H) as [v ->]. cbn [bind]. destruct v; try congruence. apply particles_err.
Qed.

(** Anything that is not the JSON form of an event is refused with MARLEY's exception, except
    that an object with a good energy and spin and without a parity is refused with
    std::out_of_range. *)
Theorem C07_refused j e : event_of_json j = Er e ->
  (e = MarleyErr \/ e = StdRange) /\
  (e = StdRange <-> exists l, j = JObj l /\ holds_number l "Ex" /\ holds_integer l "twoJ" /\ obj_get (b "parity") l = None).
Proof.
  unfold event_of_json. intros H.
  destruct (json_double (b "Ex") j) as [ex|e1] eqn:E1; cbn [bind] in H.
  2: { pose proof (double_err _ _ _ E1) as X. assert (e = MarleyErr) by congruence. split; [left; assumption|]. split; [congruence|].
       intros (l & -> & G & _). destruct (double_has _ _ G) as [x G']. congruence. }
  destruct (double_ok _ _ _ E1) as (l & -> & N1).
  destruct (json_integer (b "twoJ") (JObj l)) as [tj|e1] eqn:E2; cbn [bind] in H.
  2: { pose proof (integer_err _ _ _ E2) as X. assert (e = MarleyErr) by congruence. split; [left; assumption|]. split; [congruence|].
       intros (l' & Hl & _ & G & _). injection Hl as <-. destruct (integer_has _ _ G) as [x G']. congruence. }
  destruct (integer_ok _ _ _ E2) as (l' & Hl & N2). injection Hl as <-. cbn [at_key] in H.
  destruct (obj_get (b "parity") l) as [vp|] eqn:P.
  - cbn [bind] in H. assert (X : e = MarleyErr).
    { destruct (parity_of_int (to_int (fst (to_long vp)))) eqn:EP; cbn [bind] in H; [|unfold parity_of_int in EP; repeat (destruct (_ =? _); [discriminate EP|]); congruence].
      destruct (snd (to_long vp)); [|congruence].
      destruct (json_particles (b "initial_particles") (JObj l)) eqn:E3; cbn [bind] in H; [|apply jparticles_err in E3; congruence].
      destruct (json_particles (b "final_particles") (JObj l)) eqn:E4; cbn [bind] in H; [discriminate H|apply jparticles_err in E4; congruence]. }
    split; [left; exact X|]. split; [congruence|]. intros (l' & Hl & _ & _ & G). injection Hl as <-. congruence.
  - cbn [bind] in H. assert (X : e = StdRange) by congruence. split; [right; exact X|]. split; [intros _|intros _; exact X]. exists l. repeat split; assumption.
Qed.
Print Assumptions C07_refused.

Example C07_refused_case : event_of_json (JObj [(b "Ex", JInt 0); (b "twoJ", JInt 0)]) = Er StdRange /\ event_of_json (JArr []) = Er MarleyErr /\
  event_of_json (JObj [(b "Ex", JInt 0); (b "twoJ", JInt 0); (b "parity", JInt 1)]) = Er MarleyErr.
Proof. vm_compute. repeat split. Qed.
