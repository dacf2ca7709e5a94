(** Differential widths outside the continuum, and decays without an open channel (C65). *)
From Coq Require Import List ZArith Reals Lra Lia Bool.
From Verif Require Import Base Pdg Kin Sample Mass Decay DecaySpec DecayProofs ChannelProofs SelectThms WidthThms.
Import ListNotations.
Local Open Scope R_scope.

Lemma range2_cons lo hi : (lo <= hi)%Z -> range2 lo hi <> [].
Proof.
  intros L. unfold range2. assert (0 <= (hi - lo) / 2)%Z by (apply Z.div_pos; lia).
  destruct (Z.to_nat ((hi - lo) / 2 + 1)) eqn:E; [lia|]. cbn [seq map]. discriminate.
Qed.

Lemma flat_map_cons {A B} (f : A -> list B) l : l <> [] -> (forall x, f x <> []) -> flat_map f l <> [].
Proof. destruct l as [|a l]; [congruence|]. intros _ H. cbn [flat_map]. specialize (H a). destruct (f a); [congruence|discriminate]. Qed.

(** There is a partial wave or a multipole to emit. *)
Definition waves (v : env) (c : comp) (fr : option (Z * Z * bool)) : Prop :=
  (0 <= c_twoJ c)%Z /\ match fr with None => (1 <= v_glmax v)%Z | Some (_, s, _) => (0 <= v_flmax v)%Z /\ (0 <= s)%Z end.

Lemma gamma_terms_cons J lmax : (0 <= J)%Z -> (1 <= lmax)%Z -> gamma_terms J lmax <> [].
Proof.
  intros HJ Hl. unfold gamma_terms, range1. destruct (Z.to_nat (lmax - 1 + 1)) eqn:E; [lia|]. cbn [seq map flat_map].
  intros C. apply app_eq_nil in C. destruct C as [C _]. revert C. apply flat_map_cons; [apply range2_cons; lia|discriminate].
Qed.

Lemma fragment_terms_cons J P s Pa lmax : (0 <= J)%Z -> (0 <= s)%Z -> (0 <= lmax)%Z -> fragment_terms J P s Pa lmax <> [].
Proof.
  intros HJ Hs Hl. unfold fragment_terms. destruct (Z.to_nat (lmax + 1)) eqn:E; [lia|]. cbn [continuum_l].
  intros C. apply app_eq_nil in C. destruct C as [C _]. revert C. rewrite Z.mul_0_r. rewrite Z.sub_0_l, Z.abs_opp, Z.add_0_l, (Z.abs_eq s) by lia.
  assert (R : range2 s s = [s]).
  { unfold range2. rewrite Z.sub_diag. change (Z.to_nat (0 / 2 + 1)) with 1%nat. cbn [seq map Z.of_nat]. rewrite Z.mul_0_r, Z.add_0_r. reflexivity. }
  rewrite R. cbn [flat_map]. rewrite app_nil_r.
  intros C. apply map_eq_nil in C. revert C. apply range2_cons. lia.
Qed.

(** At a final energy more than an electronvolt outside the continuum there are no final
    states; at every other one there are as many as the maximum multipolarity gives. *)
Theorem C65_edges v c fr top E0 E : open_to v c fr top -> E0 <= top -> waves v c fr ->
  ((E < E0 - 1 / 1000000 \/ top + 1 / 1000000 < E) <-> table v c fr E0 E = Ok []).
Proof.
  intros O L [HJ W]. destruct fr as [[[f s] Pa]|]; cbn [open_to table] in *.
  - destruct O as (_ & _ & _ & (S & ES & ET) & _). unfold fragment_table, max_Exf. rewrite ES. cbn [bind]. rewrite <- ET.
    unfold tiny_offset. destruct (Rlt_dec top E0); [lra|]. destruct (Rlt_dec E _) as [A|A]; [split; [reflexivity|left; exact A]|].
    destruct (Rlt_dec (top + _) E) as [B|B]; [split; [reflexivity|right; exact B]|]. split; [intros [C|C]; lra|].
    intros C. exfalso. assert (Q : forall (x y : list jpi), Ok x = Ok y -> x = y) by (intros x y q; injection q; auto). apply Q in C. apply map_eq_nil in C. revert C.
    destruct W. apply fragment_terms_cons; assumption.
  - subst top. unfold gamma_table, tiny_offset. destruct (Rlt_dec (c_Ex c) E0); [lra|].
    destruct (Rlt_dec E _) as [A|A]; [split; [reflexivity|left; exact A]|].
    destruct (Rlt_dec (c_Ex c + _) E) as [B|B]; [split; [reflexivity|right; exact B]|]. split; [intros [C|C]; lra|].
    intros C. exfalso. assert (Q : forall (x y : list jpi), Ok x = Ok y -> x = y) by (intros x y q; injection q; auto). apply Q in C. apply map_eq_nil in C. revert C.
    apply gamma_terms_cons; assumption.
Qed.
Print Assumptions C65_edges.

(** The differential width vanishes there. *)
Theorem C65_outside v c fr top E0 E : open_to v c fr top -> E0 <= top -> E < E0 - 1 / 1000000 \/ top + 1 / 1000000 < E ->
  diff_width v c fr E0 E = 0.
Proof.
  intros O L H. unfold diff_width. replace (table v c fr E0 E) with (Ok (@nil jpi)); [reflexivity|]. symmetry.
  destruct fr as [[[f s] Pa]|]; cbn [open_to table] in *.
  - destruct O as (_ & _ & _ & (S & ES & ET) & _). unfold fragment_table, max_Exf. rewrite ES. cbn [bind]. rewrite <- ET.
    unfold tiny_offset. destruct (Rlt_dec top E0); [lra|]. destruct (Rlt_dec E _); [reflexivity|]. destruct (Rlt_dec (top + _) E); [reflexivity|lra].
  - subst top. unfold gamma_table, tiny_offset. destruct (Rlt_dec (c_Ex c) E0); [lra|].
    destruct (Rlt_dec E _); [reflexivity|]. destruct (Rlt_dec (c_Ex c + _) E); [reflexivity|lra].
Qed.
Print Assumptions C65_outside.

(** A nucleus none of whose channels has a width is refused with MARLEY's own exception. *)
Theorem C65_no_width v nucleus Ex J P cs d fuel :
  exit_channels v (mkcomp (pid nucleus) (chg nucleus) Ex J P) = Ok cs -> (forall x, In x cs -> x_width x = 0) ->
  hf_decay v nucleus Ex J P d fuel = Er MarleyErr.
Proof.
  intros E H. unfold hf_decay. rewrite E. cbn [bind]. assert (S : sumR (map x_width cs) = 0).
  { clear E. induction cs as [|x cs IH]; [reflexivity|]. cbn [map sumR]. rewrite (H x) by (left; reflexivity).
    rewrite IH by (intros y Hy; apply H; right; exact Hy). lra. }
  destruct (Rle_dec (sumR (map x_width cs)) 0); [reflexivity|lra].
Qed.
Print Assumptions C65_no_width.

(** A nucleus at 3 MeV whose levels end at 1 MeV, emitting gammas of multipolarity one. *)
Example C65_edges_case v : v_glmax v = 1%Z -> forall c, c_Ex c = 3 -> c_twoJ c = 2%Z ->
  open_to v c None 3 /\ 1 <= 3 /\ waves v c None /\ table v c None 1 (1 / 2) = Ok [] /\ diff_width v c None 1 4 = 0 /\
  table v c None 1 2 <> Ok [].
Proof.
  intros G c HE HJ. assert (O : open_to v c None 3) by (symmetry; exact HE). assert (W : waves v c None) by (split; rewrite ?HJ, ?G; lia).
  assert (L : 1 <= 3) by lra. split; [exact O|]. split; [exact L|]. split; [exact W|]. split; [apply (C65_edges v c None 3 1 (1/2) O L W); lra|].
  split; [apply (C65_outside v c None 3 1 4 O L); lra|]. intros C. apply (C65_edges v c None 3 1 2 O L W) in C. lra.
Qed.
