(** Property C63: the search for data files. *)
From Coq Require Import List Ascii String ZArith Bool Lia.
From Verif Require Import Base Strings Files.
Import ListNotations.
Open Scope list_scope.

(** ** Vocabulary *)

(** Directory [d] can be read and has a regular file of this name. *)
Definition holds (fs : files) (d base : bytes) : Prop := exists es, f_dir fs d = Some es /\ In (base, Some true) es.

Lemma bytes_eqb_eq x : forall y, bytes_eqb x y = true <-> x = y.
Proof.
  induction x as [|a x IH]; intros [|c y]; cbn [bytes_eqb]; split; intros H; try discriminate; try reflexivity.
  - apply andb_true_iff in H. destruct H as [H1 H2]. apply Ascii.eqb_eq in H1. apply IH in H2. congruence.
  - injection H as -> ->. apply andb_true_iff. split; [apply Ascii.eqb_refl|apply IH; reflexivity].
Qed.

Lemma find_entry_spec base l : find_entry base l = true <-> In (base, Some true) l.
Proof.
  induction l as [|[n k] l IH]; cbn [find_entry]; [split; [discriminate|intros []]|]. destruct k as [[|]|].
  - destruct (bytes_eqb base n) eqn:E.
    + apply bytes_eqb_eq in E. subst n. split; [left; reflexivity|reflexivity].
    + rewrite IH. split; [right; assumption|]. intros [H|H]; [|exact H]. injection H as ->. rewrite (proj2 (bytes_eqb_eq base base) eq_refl) in E. discriminate.
  - rewrite IH. split; [right; assumption|]. intros [H|H]; [discriminate|exact H].
  - rewrite IH. split; [right; assumption|]. intros [H|H]; [discriminate|exact H].
Qed.

(** ** Theorems *)

(** A name that exists as it is given is used as it is. *)
Theorem C63_as_given fs base path : f_exists fs base = true -> find_file fs base path = base.
Proof. intros H. unfold find_file, find_file_dirs. rewrite H. reflexivity. Qed.
Print Assumptions C63_as_given.

(** Otherwise the first directory on the search path that holds the file wins, and the
    result is empty exactly if none does. Directories that cannot be read are skipped. The
    search path is split at colons (C52). *)
Theorem C63_first fs base dirs : f_exists fs base = false ->
  (find_file_dirs fs base dirs = [] /\ Forall (fun d => ~ holds fs d base) dirs) \/
  (exists pre d post, dirs = pre ++ d :: post /\ find_file_dirs fs base dirs = d ++ Base.b "/" ++ base /\ holds fs d base /\ Forall (fun d => ~ holds fs d base) pre).
Proof.
  intros H. unfold find_file_dirs. rewrite H. clear H. induction dirs as [|d r IH]; cbn [find_in]; [left; split; [reflexivity|constructor]|].
  assert (K : holds fs d base \/ (~ holds fs d base /\ find_in fs base (d :: r) = find_in fs base r)).
  { cbn [find_in]. unfold holds. destruct (f_dir fs d) as [es|]; [|right; split; [intros (? & ? & _); discriminate|reflexivity]].
    destruct (find_entry base es) eqn:E; [left; exists es; split; [reflexivity|apply find_entry_spec; exact E]|right; split; [|reflexivity]].
    intros (es' & H1 & H2). injection H1 as <-. apply find_entry_spec in H2. congruence. }
  destruct K as [K|[K E]].
  - right. exists [], d, r. split; [reflexivity|]. split; [|split; [exact K|constructor]]. destruct K as (es & -> & K). apply find_entry_spec in K. rewrite K. reflexivity.
  - cbn [find_in] in E. rewrite E. destruct IH as [[H1 H2]|(pre & d' & post & H1 & H2 & H3 & H4)].
    + left. split; [exact H1|constructor; assumption].
    + right. exists (d :: pre), d', post. split; [rewrite H1; reflexivity|]. split; [exact H2|]. split; [exact H3|constructor; assumption].
Qed.
Print Assumptions C63_first.

(** A result that is not empty names something that exists, if the directory listing and
    stat agree. *)
Theorem C63_exists fs base path : (forall d n k es, f_dir fs d = Some es -> In (n, Some k) es -> f_exists fs (d ++ Base.b "/" ++ n) = true) ->
  find_file fs base path <> [] -> f_exists fs (find_file fs base path) = true.
Proof.
  intros HA HN. destruct (f_exists fs base) eqn:E; [rewrite (C63_as_given _ _ _ E); exact E|].
  destruct (C63_first fs base (split_string ":"%char path) E) as [[H _]|(pre & d & post & _ & H & (es & H1 & H2) & _)]; [unfold find_file in HN; contradiction|].
  unfold find_file. rewrite H. eapply HA; eassumption.
Qed.
Print Assumptions C63_exists.

(** The list of all files has exactly the regular files of the readable directories. *)
Theorem C63_all fs path p : In p (list_all_files fs path) <-> exists d n, In d (split_string ":"%char path) /\ holds fs d n /\ p = d ++ Base.b "/" ++ n.
Proof.
  unfold list_all_files. rewrite in_flat_map. split.
  - intros (d & H1 & H2). destruct (f_dir fs d) as [es|] eqn:E; [|destruct H2]. unfold regular in H2. apply in_flat_map in H2. destruct H2 as ([n k] & H2 & H3). cbn [fst snd] in H3.
    destruct k as [[|]|]; try destruct H3. exists d, n. split; [exact H1|]. split; [exists es; split; assumption|symmetry; assumption]. contradiction.
  - intros (d & n & H1 & (es & H2 & H3) & ->). exists d. split; [exact H1|]. rewrite H2. apply in_flat_map. exists (n, Some true). split; [exact H3|left; reflexivity].
Qed.
Print Assumptions C63_all.

Definition case_files : files := mkfiles (fun p => bytes_eqb p (Base.b "/b/x"))
  (fun d => if bytes_eqb d (Base.b "/a") then Some [(Base.b "y", Some true); (Base.b "x", Some false)] else if bytes_eqb d (Base.b "/b") then Some [(Base.b "x", Some true)] else None) (fun _ => []).
Example C63_case : f_exists case_files (Base.b "x") = false /\ find_file case_files (Base.b "x") (Base.b "/c:/a:/b:/a") = Base.b "/b/x" /\ find_file case_files (Base.b "z") (Base.b "/c:/a:/b") = [] /\
  find_file case_files (Base.b "/b/x") (Base.b "/a") = Base.b "/b/x" /\ list_all_files case_files (Base.b "/c:/a:/b") = [Base.b "/a/y"; Base.b "/b/x"].
Proof. repeat split. Qed.
