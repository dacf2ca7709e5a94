(** Property C73, continued: the options of the marley executable. *)
From Coq Require Import List Ascii String Bool.
From Verif Require Import Base Json JsonProofs JsonRtProofs Strings Output Main MainProofs.
Import ListNotations.

(** What each first argument asks for. *)
Theorem C73_options args :
  (forall cfg, command_line args = Job cfg <-> exists rest, args = cfg :: rest /\ hd_error cfg <> Some "-"%char) /\
  (command_line args = ShowHelp <-> args = [] \/ exists a rest, args = a :: rest /\ In a [b "-h"; b "--help"]) /\
  (command_line args = ShowVersion <-> exists a rest, args = a :: rest /\ In a [b "-v"; b "--version"]) /\
  (command_line args = ShowPicture <-> exists rest, args = b "--marley" :: rest) /\
  (forall o, command_line args = Unrecognised o <-> exists rest, args = o :: rest /\ hd_error o = Some "-"%char /\ ~ In o [b "-h"; b "--help"; b "-v"; b "--version"; b "--marley"]).
Proof.
  destruct args as [|a r].
  { cbn [command_line]. repeat split; try (intros; discriminate); try (intros (? & ? & _); discriminate); try (intros (? & ?); discriminate); try (intros (? & ? & ? & _); discriminate); auto. }
  assert (D : bytes_eqb (firstn 1 a) (b "-") = true <-> hd_error a = Some "-"%char).
  { rewrite bytes_eqb_eq. destruct a as [|c a]; cbn; split; congruence. }
  assert (K : forall k, bytes_eqb a (b k) = true <-> a = b k) by (intros k; apply bytes_eqb_eq).
  assert (H5 : forall k, In k ["-h"; "--help"; "-v"; "--version"; "--marley"]%string -> a = b k -> hd_error a = Some "-"%char) by (intros k Hk ->; cbn in Hk; repeat (destruct Hk as [<-|Hk]; [reflexivity|]); destruct Hk).
  cbn [command_line].
  destruct (bytes_eqb (firstn 1 a) (b "-")) eqn:E0; cbn [negb].
  2:{ assert (N : hd_error a <> Some "-"%char) by (intros X; apply D in X; discriminate).
      split; [intros cfg; split; [intros H; injection H as <-; eauto|intros (rest & H & _); congruence]|].
      split; [split; [discriminate|intros [H|(x & rest & H & I)]; [discriminate|]; injection H as <- <-; exfalso; apply N; destruct I as [I|[I|[]]]; rewrite <- I; reflexivity]|].
      split; [split; [discriminate|intros (x & rest & H & I); injection H as <- <-; exfalso; apply N; destruct I as [I|[I|[]]]; rewrite <- I; reflexivity]|].
      split; [split; [discriminate|intros (rest & H); injection H as -> <-; exfalso; apply N; reflexivity]|].
      intros o. split; [discriminate|]. intros (rest & H & X & _). injection H as <- <-. contradiction. }
  pose proof (proj1 D eq_refl) as HD.
  assert (J : forall cfg c, (c = Job cfg -> False) -> (c = Job cfg <-> exists rest, a :: r = cfg :: rest /\ hd_error cfg <> Some "-"%char)).
  { intros cfg c X. split; [intros Y; contradiction|]. intros (rest & Y & Z). injection Y as <- <-. contradiction. }
  destruct (bytes_eqb a (b "-h")) eqn:E1; [apply K in E1|]; [|destruct (bytes_eqb a (b "--help")) eqn:E2; [apply K in E2|]]; cbn [orb].
  - split; [intros; apply J; discriminate|]. split; [split; auto; intros _; right; exists a, r; split; [reflexivity|left; auto]|].
    split; [split; [discriminate|intros (x & rest & H & I); injection H as <- <-; subst a; destruct I as [I|[I|[]]]; discriminate I]|].
    split; [split; [discriminate|intros (rest & H); injection H as H _; subst a; discriminate H]|].
    intros o. split; [discriminate|]. intros (rest & H & _ & I). injection H as <- <-. exfalso. apply I. left. auto.
  - split; [intros; apply J; discriminate|]. split; [split; auto; intros _; right; exists a, r; split; [reflexivity|right; left; auto]|].
    split; [split; [discriminate|intros (x & rest & H & I); injection H as <- <-; subst a; destruct I as [I|[I|[]]]; discriminate I]|].
    split; [split; [discriminate|intros (rest & H); injection H as H _; subst a; discriminate H]|].
    intros o. split; [discriminate|]. intros (rest & H & _ & I). injection H as <- <-. exfalso. apply I. right. left. auto.
  - assert (N1 : a <> b "-h") by (intros X; apply K in X; congruence). assert (N2 : a <> b "--help") by (intros X; apply K in X; congruence).
    assert (NH : forall c, c <> ShowHelp -> (c = ShowHelp <-> a :: r = [] \/ exists a0 rest, a :: r = a0 :: rest /\ In a0 [b "-h"; b "--help"])).
    { intros c X. split; [contradiction|]. intros [H|(x & rest & H & I)]; [discriminate|]. injection H as <- <-. exfalso. destruct I as [I|[I|[]]]; congruence. }
    destruct (bytes_eqb a (b "-v")) eqn:E3; [apply K in E3|]; [|destruct (bytes_eqb a (b "--version")) eqn:E4; [apply K in E4|]]; cbn [orb].
    + split; [intros; apply J; discriminate|]. split; [apply NH; discriminate|]. split; [split; auto; intros _; exists a, r; split; [reflexivity|left; auto]|].
      split; [split; [discriminate|intros (rest & H); injection H as H _; subst a; discriminate H]|].
      intros o. split; [discriminate|]. intros (rest & H & _ & I). injection H as <- <-. exfalso. apply I. do 2 right. left. auto.
    + split; [intros; apply J; discriminate|]. split; [apply NH; discriminate|]. split; [split; auto; intros _; exists a, r; split; [reflexivity|right; left; auto]|].
      split; [split; [discriminate|intros (rest & H); injection H as H _; subst a; discriminate H]|].
      intros o. split; [discriminate|]. intros (rest & H & _ & I). injection H as <- <-. exfalso. apply I. do 3 right. left. auto.
    + assert (N3 : a <> b "-v") by (intros X; apply K in X; congruence). assert (N4 : a <> b "--version") by (intros X; apply K in X; congruence).
      assert (NV : forall c, c <> ShowVersion -> (c = ShowVersion <-> exists a0 rest, a :: r = a0 :: rest /\ In a0 [b "-v"; b "--version"])).
      { intros c X. split; [contradiction|]. intros (x & rest & H & I). injection H as <- <-. exfalso. destruct I as [I|[I|[]]]; congruence. }
      destruct (bytes_eqb a (b "--marley")) eqn:E5; [apply K in E5|].
      * split; [intros; apply J; discriminate|]. split; [apply NH; discriminate|]. split; [apply NV; discriminate|]. split; [split; auto; intros _; exists r; congruence|].
        intros o. split; [discriminate|]. intros (rest & H & _ & I). injection H as <- <-. exfalso. apply I. do 4 right. left. auto.
      * assert (N5 : a <> b "--marley") by (intros X; apply K in X; congruence).
        split; [intros; apply J; discriminate|]. split; [apply NH; discriminate|]. split; [apply NV; discriminate|]. split; [split; [discriminate|intros (rest & H); congruence]|].
        intros o. split.
        -- intros H. injection H as <-. exists r. split; [reflexivity|]. split; [exact HD|]. intros I. repeat (destruct I as [I|I]; [congruence|]). destruct I.
        -- intros (rest & H & _). injection H as <- <-. reflexivity.
Qed.
Print Assumptions C73_options.
