(** Lemmas for property C51. *)
From Coq Require Import List Ascii String ZArith Bool Lia Sorted.
From Coq Require Import Floats.SpecFloat.
From Verif Require Import Base Dbl Stream StreamProofs Strings Pdg PdgThms Names Levels LevelsTextProofs LevelsThms Target Files FilesThms Struct.
Import ListNotations.
Open Scope list_scope.

(** ** Maps *)

Lemma assoc_erase {A} k k' (l : list (Z * A)) : assoc k (erase k' l) = if Z.eqb k k' then None else assoc k l.
Proof.
  unfold erase. induction l as [|[x v] l IH]; cbn [filter assoc fst]; [destruct (Z.eqb k k'); reflexivity|].
  destruct (Z.eqb_spec k' x) as [->|N]; cbn [negb assoc]; rewrite ?IH; destruct (Z.eqb_spec k x) as [->|N']; try reflexivity.
  destruct (Z.eqb_spec x k'); [congruence|reflexivity].
Qed.

Lemma assoc_assign {A} k k' (v : A) l : assoc k (assign k' v l) = if Z.eqb k k' then Some v else assoc k l.
Proof. unfold assign. cbn [assoc]. destruct (Z.eqb k k') eqn:E; [reflexivity|]. rewrite assoc_erase, E. reflexivity. Qed.

Lemma assoc_emplace {A} k k' (v : A) l : assoc k (emplace k' v l) = match assoc k l with Some x => Some x | None => if Z.eqb k k' then Some v else None end.
Proof.
  unfold emplace. destruct (assoc k' l) eqn:E; [|cbn [assoc]]; destruct (Z.eqb_spec k k') as [->|N]; rewrite ?E; try reflexivity; destruct (assoc k l); reflexivity.
Qed.

(** ** What steps do to one entry *)

Definition entry_of (p : Z) (d : db) : option entry := assoc p (d_table d).

Lemma add_entry p q s d : entry_of q (add_scheme p s d) =
  match entry_of q d with Some e => Some e | None => if Z.eqb q p then Some (match s with None => None | Some sc => Some (d_next d, sc) end) else None end.
Proof. unfold entry_of, add_scheme. destruct s; cbn; apply assoc_emplace. Qed.

Lemma load_all_keeps w p e q fuel : forall found s d, entry_of q d = Some e -> entry_of q (fst (load_all fuel w p found s d)) = Some e.
Proof.
  induction fuel as [|k IH]; intros found s d H; cbn [load_all]; [exact H|]. destruct (read_scheme _ s) as [[[sc t]|]|]; try exact H. cbv zeta.
  assert (H1 : entry_of q (add_scheme (nucleus_pid (s_Z sc) (s_A sc)) (Some sc) d) = Some e) by (rewrite add_entry, H; reflexivity).
  destruct (bind _ _) as [|]; cbn [fst]; [apply IH|]; exact H1.
Qed.

Lemma load_index_table w d : d_table (fst (load_index w d)) = d_table d /\ d_next (fst (load_index w d)) = d_next d /\ d_models (fst (load_index w d)) = d_models d.
Proof. unfold load_index. destruct (find_file _ _ _); repeat split; reflexivity. Qed.

Lemma get_entry_none w p d q e : entry_of q d = Some e -> entry_of q (fst (get_scheme w p d)) = Some e.
Proof.
  intros H. unfold get_scheme. destruct (assoc p (d_table d)) as [e'|] eqn:EP; [exact H|]. destruct (bind _ _); [|exact H].
  assert (K : d_table (fst (if d_loaded d then (d, Ok tt) else load_index w d)) = d_table d) by (destruct (d_loaded d); [reflexivity|apply load_index_table]).
  destruct (if d_loaded d then (d, Ok tt) else load_index w d) as [d1 r]. cbn [fst] in K.
  assert (H1 : entry_of q d1 = Some e) by (unfold entry_of; rewrite K; exact H). destruct r; [|exact H1].
  destruct (assoc p (d_names d1)); [|exact H1]. cbv zeta. match goal with |- context [load_all ?f ?a ?b ?c ?s ?d] => pose proof (load_all_keeps a b e q f c s d H1) as H2; destruct (load_all f a b c s d) as [d2 r2] end.
  cbn [fst] in H2. destruct r2 as [found|]; [|exact H2]. destruct (if found then Ok tt else say (w_warn w) p); [|exact H2].
  assert (H3 : entry_of q (if found then d2 else set_table (assign p None) d2) = Some e).
  { destruct found; [exact H2|]. unfold entry_of, set_table. cbn [d_table]. rewrite assoc_assign. destruct (Z.eqb_spec q p) as [->|]; [|exact H2]. unfold entry_of in H. congruence. }
  destruct (assoc p (d_table (if found then d2 else set_table (assign p None) d2))); exact H3.
Qed.

Lemma model_table w k pid z a d : d_table (fst (find_model w k pid z a d)) = d_table d /\ d_names (fst (find_model w k pid z a d)) = d_names d /\ d_loaded (fst (find_model w k pid z a d)) = d_loaded d.
Proof. unfold find_model. destruct (assoc _ _); [repeat split|]. destruct (w_make w k z a); repeat split. Qed.

Lemma get_model_is w k p d : exists p', get_model w k p d = find_model w k p' (particle_Z p) (particle_A p) d /\ (p' = p \/ k = Strength /\ p' = nucleus_pid (particle_Z p) (particle_A p)).
Proof. unfold get_model. cbv zeta. destruct k; eexists; split; try reflexivity; auto. Qed.
Lemma get_model_ZA_is w k z a d : exists p z' a', get_model_ZA w k z a d = find_model w k p z' a' d /\ p = nucleus_pid z a /\ ((z', a') = (z, a) \/ (z', a') = (particle_Z p, particle_A p)).
Proof. unfold get_model_ZA. destruct k; do 3 eexists; (split; [reflexivity|]); auto. Qed.

(** A call that does not remove or replace the scheme of [p]. *)
Definition spares (p : Z) (op : dop) : Prop :=
  match op with DEmplace q _ | DRemove q => q <> p | DClear => False | _ => True end.

Lemma step_keeps p e d op : spares p op -> entry_of p d = Some e -> entry_of p (dstep d op) = Some e.
Proof.
  intros HS H. destruct op as [q s|q r|q| |w q|w k q|w k z a]; cbn [spares dstep] in *.
  - rewrite add_entry, H. reflexivity.
  - unfold emplace_scheme. assert (H1 : entry_of p (set_table (erase q) d) = Some e) by (unfold entry_of, set_table; cbn [d_table]; rewrite assoc_erase; destruct (Z.eqb_spec p q); [congruence|exact H]).
    destruct r; cbn [fst]; [rewrite add_entry, H1; reflexivity|exact H1].
  - unfold remove_scheme, entry_of, set_table. cbn [d_table]. rewrite assoc_erase. destruct (Z.eqb_spec p q); [congruence|exact H].
  - contradiction.
  - apply get_entry_none. exact H.
  - destruct (get_model_is w k q d) as (p' & -> & _). unfold entry_of. rewrite (proj1 (model_table _ _ _ _ _ _)). exact H.
  - destruct (get_model_ZA_is w k z a d) as (p' & z' & a' & -> & _). unfold entry_of. rewrite (proj1 (model_table _ _ _ _ _ _)). exact H.
Qed.

Lemma run_keeps p e ops : forall d, Forall (spares p) ops -> entry_of p d = Some e -> entry_of p (fold_left dstep ops d) = Some e.
Proof. induction ops as [|op ops IH]; intros d HF H; cbn [fold_left]; [exact H|]. apply IH; [exact (Forall_inv_tail HF)|]. apply step_keeps; [exact (Forall_inv HF)|exact H]. Qed.

Lemma get_hit w p d e : entry_of p d = Some e -> get_scheme w p d = (d, Ok e).
Proof. intros H. unfold get_scheme. unfold entry_of in H. rewrite H. reflexivity. Qed.

Lemma get_result w p d d' e : get_scheme w p d = (d', Ok e) -> entry_of p d' = Some e \/ e = None /\ d_table d' = d_table d /\ entry_of p d = None.
Proof.
  unfold get_scheme. destruct (assoc p (d_table d)) as [e'|] eqn:EP; [intros H; injection H as <- <-; left; exact EP|]. destruct (bind _ _); [|discriminate].
  assert (K : d_table (fst (if d_loaded d then (d, Ok tt) else load_index w d)) = d_table d) by (destruct (d_loaded d); [reflexivity|apply load_index_table]).
  destruct (if d_loaded d then (d, Ok tt) else load_index w d) as [d1 r]. cbn [fst] in K. destruct r; [|discriminate].
  destruct (assoc p (d_names d1)); [|intros H; injection H as <- <-; right; repeat split; [exact K|exact EP]]. cbv zeta. destruct (load_all _ _ _ _ _ _) as [d2 r2]. destruct r2 as [found|]; [|discriminate].
  destruct (if found then Ok tt else say (w_warn w) p); [|discriminate]. match goal with |- context [assoc p (d_table ?x)] => destruct (assoc p (d_table x)) eqn:E end; [|discriminate].
  intros H. injection H as <- <-. left. exact E.
Qed.

(** ** Addresses *)

Definition addressed (d : db) : Prop := forall p a s, entry_of p d = Some (Some (a, s)) ->
  (a < d_next d)%nat /\ forall q s', entry_of q d = Some (Some (a, s')) -> q = p.

Lemma addressed_table d d' : d_table d' = d_table d -> (d_next d <= d_next d')%nat -> addressed d -> addressed d'.
Proof. intros E L H p a s HP. unfold entry_of in *. rewrite E in *. destruct (H p a s HP) as [H1 H2]. split; [lia|]. exact H2. Qed.

Lemma addressed_add p s d : addressed d -> addressed (add_scheme p s d).
Proof.
  intros H q a sc. rewrite add_entry. destruct (entry_of q d) as [e|] eqn:EQ.
  - intros HE. injection HE as ->. destruct (H q a sc EQ) as [H1 H2]. split.
    + destruct s; cbn; lia.
    + intros q' s'. rewrite add_entry. destruct (entry_of q' d) as [e|] eqn:EQ'; [intros HE; injection HE as ->; eapply H2; exact EQ'|].
      destruct (Z.eqb_spec q' p); [|discriminate]. destruct s; [|discriminate]. intros HE. injection HE as HE _. lia.
  - destruct (Z.eqb_spec q p) as [->|]; [|discriminate]. destruct s as [s|]; [|discriminate]. intros HE. injection HE as <- _. split; [cbn; lia|].
    intros q' s'. rewrite add_entry. destruct (entry_of q' d) as [e|] eqn:EQ'; [|destruct (Z.eqb_spec q' p); [auto|discriminate]].
    intros HE. injection HE as ->. destruct (H q' _ s' EQ') as [HL _]. lia.
Qed.

Lemma addressed_sub d f : (forall p e, assoc p (f (d_table d)) = Some (Some e) -> assoc p (d_table d) = Some (Some e)) -> addressed d -> addressed (set_table f d).
Proof. intros HF H p a s HP. unfold entry_of, set_table in *. cbn [d_table d_next] in *. apply HF in HP. destruct (H p a s HP) as [H1 H2]. split; [exact H1|]. intros q s' HQ. apply HF in HQ. eapply H2. exact HQ. Qed.

Lemma addressed_load w p fuel : forall found s d, addressed d -> addressed (fst (load_all fuel w p found s d)).
Proof.
  induction fuel as [|k IH]; intros found s d H; cbn [load_all]; [exact H|]. destruct (read_scheme _ s) as [[[sc t]|]|]; try exact H. cbv zeta.
  destruct (bind _ _); cbn [fst]; [apply IH|]; apply addressed_add; exact H.
Qed.

Lemma addressed_step d op : addressed d -> addressed (dstep d op).
Proof.
  assert (HE : forall q d, addressed d -> addressed (set_table (erase q) d)).
  { intros q d0. apply addressed_sub. intros p e. rewrite assoc_erase. destruct (Z.eqb p q); [discriminate|auto]. }
  intros H. destruct op as [q s|q r|q| |w q|w k q|w k z a]; cbn [dstep].
  - apply addressed_add. exact H.
  - unfold emplace_scheme. destruct r; cbn [fst]; [apply addressed_add|]; apply HE; exact H.
  - apply HE. exact H.
  - unfold clear. intros p a s HP. discriminate HP.
  - unfold get_scheme. destruct (assoc q (d_table d)) as [e'|]; [exact H|]. destruct (bind _ _); [|exact H].
    assert (K : addressed (fst (if d_loaded d then (d, Ok tt) else load_index w d))).
    { destruct (d_loaded d); [exact H|]. destruct (load_index_table w d) as (K1 & K2 & _). eapply addressed_table; [exact K1|rewrite K2; apply le_n|exact H]. }
    destruct (if d_loaded d then (d, Ok tt) else load_index w d) as [d1 r]. cbn [fst] in K. destruct r; [|exact K].
    destruct (assoc q (d_names d1)); [|exact K]. cbv zeta. match goal with |- context [load_all ?f ?a ?b ?c ?s ?d] => pose proof (addressed_load a b f c s d K) as H2; destruct (load_all f a b c s d) as [d2 r2] end.
    cbn [fst] in H2. destruct r2 as [found|]; [|exact H2]. destruct (if found then Ok tt else say (w_warn w) q); [|exact H2].
    assert (H3 : addressed (if found then d2 else set_table (assign q None) d2)).
    { destruct found; [exact H2|]. apply addressed_sub; [|exact H2]. intros p e. rewrite assoc_assign. destruct (Z.eqb p q); [discriminate|auto]. }
    destruct (assoc q (d_table (if found then d2 else set_table (assign q None) d2))); exact H3.
  - destruct (get_model_is w k q d) as (p' & -> & _). eapply addressed_table; [apply model_table| |exact H]. unfold find_model. destruct (assoc _ _); [apply le_n|]. destruct (w_make _ _ _ _); cbn; lia.
  - destruct (get_model_ZA_is w k z a d) as (p' & z' & a' & -> & _). eapply addressed_table; [apply model_table| |exact H]. unfold find_model. destruct (assoc _ _); [apply le_n|]. destruct (w_make _ _ _ _); cbn; lia.
Qed.

Lemma addressed_run ops : forall d, addressed d -> addressed (fold_left dstep ops d).
Proof. induction ops as [|op ops IH]; intros d H; cbn [fold_left]; [exact H|]. apply IH, addressed_step, H. Qed.

Lemma addressed_new : addressed new_db.
Proof. intros p a s H. discriminate H. Qed.

(** ** The index is read once *)

Lemma add_rest p s d : d_loaded (add_scheme p s d) = d_loaded d /\ d_names (add_scheme p s d) = d_names d /\ d_models (add_scheme p s d) = d_models d.
Proof. unfold add_scheme. destruct s; repeat split. Qed.

Lemma load_rest w p fuel : forall found s d, let d' := fst (load_all fuel w p found s d) in d_loaded d' = d_loaded d /\ d_names d' = d_names d /\ d_models d' = d_models d.
Proof.
  cbv zeta. induction fuel as [|k IH]; intros found s d; cbn [load_all]; [repeat split|]. destruct (read_scheme _ s) as [[[sc t]|]|]; try (repeat split; fail). cbv zeta.
  destruct (add_rest (nucleus_pid (s_Z sc) (s_A sc)) (Some sc) d) as (A1 & A2 & A3). destruct (bind _ _); cbn [fst]; [|auto].
  specialize (IH (found || (p =? nucleus_pid (s_Z sc) (s_A sc)))%Z t (add_scheme (nucleus_pid (s_Z sc) (s_A sc)) (Some sc) d)). rewrite A1, A2, A3 in IH. exact IH.
Qed.

Definition index_inv (d : db) : Prop := d_loaded d = false -> d_names d = [].

Lemma get_rest w p d : let d' := fst (get_scheme w p d) in d_models d' = d_models d /\
  ((d_loaded d' = d_loaded d /\ d_names d' = d_names d) \/ (d_loaded d = false /\ d_loaded d' = true)).
Proof.
  cbv zeta. unfold get_scheme. destruct (assoc p (d_table d)) as [e'|]; [auto|]. destruct (bind _ _); [|auto].
  assert (K : let d1 := fst (if d_loaded d then (d, Ok tt) else load_index w d) in d_models d1 = d_models d /\ ((d_loaded d1 = d_loaded d /\ d_names d1 = d_names d) \/ (d_loaded d = false /\ d_loaded d1 = true))).
  { cbv zeta. destruct (d_loaded d) eqn:E; [auto|]. split; [apply load_index_table|]. unfold load_index. destruct (find_file _ _ _); cbn [fst]; auto. }
  cbv zeta in K. destruct (if d_loaded d then (d, Ok tt) else load_index w d) as [d1 r]. cbn [fst] in K. destruct r; [|exact K].
  destruct (assoc p (d_names d1)); [|exact K]. cbv zeta. match goal with |- context [load_all ?f ?a ?b ?c ?s ?d] => pose proof (load_rest a b f c s d) as H2; destruct (load_all f a b c s d) as [d2 r2] end.
  cbv zeta in H2. cbn [fst] in H2. destruct H2 as (H1 & H2 & H3). rewrite <- H1, <- H2, <- H3 in K. destruct r2 as [found|]; [|exact K]. destruct (if found then Ok tt else say (w_warn w) p); [|exact K].
  destruct found; cbn [set_table d_table]; (destruct (assoc _ _); exact K).
Qed.

Lemma index_step d op : index_inv d -> index_inv (dstep d op).
Proof.
  unfold index_inv. intros H. destruct op as [q s|q r|q| |w q|w k q|w k z a]; cbn [dstep].
  - destruct (add_rest q s d) as (-> & -> & _). exact H.
  - unfold emplace_scheme. destruct r as [s|]; cbn [fst]; [|exact H]. destruct (add_rest q (Some s) (set_table (erase q) d)) as (-> & -> & _). exact H.
  - exact H.
  - exact H.
  - destruct (get_rest w q d) as [_ [[E1 E2]|[_ E]]]; [rewrite E1, E2; exact H|rewrite E; discriminate].
  - destruct (get_model_is w k q d) as (p' & -> & _). destruct (model_table w k p' (particle_Z q) (particle_A q) d) as (_ & -> & ->). exact H.
  - destruct (get_model_ZA_is w k z a d) as (p' & z' & a' & -> & _). destruct (model_table w k p' z' a' d) as (_ & -> & ->). exact H.
Qed.
Lemma index_run ops : forall d, index_inv d -> index_inv (fold_left dstep ops d).
Proof. induction ops as [|op ops IH]; intros d H; cbn [fold_left]; [exact H|]. apply IH, index_step, H. Qed.

(** ** Fuel *)

Lemma rd_exp_len s x t : rd_exp s = Some (x, t) -> (List.length t <= List.length s)%nat.
Proof.
  unfold rd_exp. destruct s as [|c r]; [intros H; injection H as _ <-; lia|]. destruct (_ || _); [|intros H; injection H as _ <-; lia].
  pose proof (take_sign_len r) as L. destruct (take_sign r) as [neg r1]. cbn [snd] in L. destruct (span_digits r1) as [ds t1] eqn:E. apply span_digits_len in E.
  destruct ds; [discriminate|]. intros H. injection H as _ <-. cbn [List.length] in *. lia.
Qed.

Lemma rd_dbl_len s x t : rd_dbl s = Some (x, t) -> (List.length t <= List.length s)%nat.
Proof.
  unfold rd_dbl. pose proof (skip_sp_len s) as L1. pose proof (take_sign_len (skip_sp s)) as L2. destruct (take_sign (skip_sp s)) as [neg r]. cbn [snd] in L2.
  destruct (span_digits r) as [ip r1] eqn:E1. apply span_digits_len in E1.
  assert (K : forall fp r2, (match r1 with c :: r' => if ceq c "."%char then span_digits r' else ([], r1) | [] => ([], r1) end) = (fp, r2) -> (List.length r2 <= List.length r1)%nat).
  { intros fp r2. destruct r1 as [|c r']; [intros H; injection H as <- <-; lia|]. destruct (ceq c ".") ; [|intros H; injection H as <- <-; lia]. intros H. apply span_digits_len in H. cbn [List.length]. lia. }
  destruct (match r1 with c :: r' => if ceq c "."%char then span_digits r' else ([], r1) | [] => ([], r1) end) as [fp r2]. specialize (K _ _ eq_refl).
  destruct (ip ++ fp); [discriminate|]. destruct (rd_exp r2) as [[y t']|] eqn:E; cbn [obind]; [|discriminate]. apply rd_exp_len in E. cbv zeta. destruct (is_finite_dbl _); [|discriminate].
  intros H. injection H as _ <-. lia.
Qed.

Lemma rd_char_len s c t : rd_char s = Some (c, t) -> (List.length t < List.length s)%nat.
Proof. unfold rd_char. pose proof (skip_sp_len s) as L. destruct (skip_sp s); [discriminate|]. intros H. injection H as -> ->. cbn [List.length] in L. lia. Qed.

Lemma read_gammas_len n : forall a sc s sc' t, read_gammas n a sc s = Ok (sc', t) -> (List.length t <= List.length s)%nat.
Proof.
  induction n as [|n IH]; intros a sc s sc' t H; cbn [read_gammas] in H; [injection H as _ <-; lia|].
  destruct (rd_dbl s) as [[e s1]|] eqn:E1; cbn [obind] in H; [|discriminate]. destruct (rd_dbl s1) as [[ri s2]|] eqn:E2; cbn [obind] in H; [|discriminate].
  destruct (rd_int s2) as [[i s3]|] eqn:E3; cbn [obind] in H; [|discriminate]. destruct (level_at i (s_levels sc)); cbn [bind] in H; [|discriminate].
  apply IH in H. apply rd_dbl_len in E1, E2. apply rd_num_len in E3. lia.
Qed.

Lemma read_levels_len n : forall sc s sc' t, read_levels n sc s = Ok (sc', t) -> (List.length t <= List.length s)%nat.
Proof.
  induction n as [|n IH]; intros sc s sc' t H; cbn [read_levels] in H; [injection H as _ <-; lia|].
  destruct (rd_dbl s) as [[e s1]|] eqn:E1; cbn [obind] in H; [|discriminate]. destruct (rd_int s1) as [[tj s2]|] eqn:E2; cbn [obind] in H; [|discriminate].
  unfold rd_parity in H. destruct (rd_char s2) as [[c s3]|] eqn:E3; cbn [bind] in H; [|discriminate]. destruct (parity_of_char c); cbn [bind] in H; [|discriminate].
  destruct (rd_int s3) as [[ng s4]|] eqn:E4; [|discriminate]. destruct (add_level _ sc) as [a1 sc1]. destruct (read_gammas _ _ _ _) as [[sc2 s5]|] eqn:E5; cbn [bind] in H; [|discriminate].
  apply IH in H. apply rd_dbl_len in E1. apply rd_num_len in E2, E4. apply rd_char_len in E3. apply read_gammas_len in E5. lia.
Qed.

Lemma read_scheme_len sc s sc' t : read_scheme sc s = Ok (Some (sc', t)) -> (List.length t < List.length s)%nat.
Proof.
  unfold read_scheme. destruct (rd_int s) as [[z s1]|] eqn:E1; cbn [obind]; [|discriminate]. destruct (rd_int s1) as [[a s2]|] eqn:E2; cbn [obind]; [|discriminate].
  destruct (rd_int s2) as [[n s3]|] eqn:E3; cbn [obind]; [|discriminate]. destruct (read_levels _ _ _) as [[sc2 t2]|] eqn:E4; cbn [bind]; [|discriminate].
  intros H. injection H as -> ->. apply rd_num_len in E1, E2, E3. apply read_levels_len in E4. lia.
Qed.

Lemma read_gammas_fuel n : forall a sc s, read_gammas n a sc s <> Er NoFuel.
Proof.
  induction n as [|n IH]; intros a sc s; cbn [read_gammas]; [discriminate|]. destruct (obind _ _) as [[[[e ri] i] s3]|]; [|discriminate].
  unfold level_at. destruct (i <? 0)%Z; [discriminate|]. destruct (nth_error _ _); cbn [bind]; [apply IH|discriminate].
Qed.
Lemma read_levels_fuel n : forall sc s, read_levels n sc s <> Er NoFuel.
Proof.
  induction n as [|n IH]; intros sc s; cbn [read_levels]; [discriminate|]. destruct (obind _ _) as [[[e tj] s2]|]; [|discriminate].
  unfold rd_parity. destruct (rd_char s2) as [[c s3]|]; cbn [bind]; [|discriminate]. unfold parity_of_char. destruct (ceq c "+"); [|destruct (ceq c "-"); [|discriminate]]; cbn [bind];
    (destruct (rd_int s3) as [[ng s4]|]; [|discriminate]; destruct (add_level _ sc) as [a1 sc1]; pose proof (read_gammas_fuel (Z.to_nat ng) a1 sc1 s4) as G; destruct (read_gammas _ _ _ _) as [[sc2 s5]|]; cbn [bind]; [apply IH|congruence]).
Qed.
Lemma read_scheme_fuel sc s : read_scheme sc s <> Er NoFuel.
Proof.
  unfold read_scheme. destruct (obind _ _) as [[[[z a] n] s3]|]; [|discriminate]. pose proof (read_levels_fuel (Z.to_nat n) (mksc z a (s_next sc) []) s3) as H.
  destruct (read_levels _ _ _); cbn [bind]; [discriminate|congruence].
Qed.

Lemma say_fuel on p : say on p <> Er NoFuel.
Proof. unfold say, atom_name, element_symbol. destruct on; [|discriminate]. destruct (assoc _ _); cbn [bind]; discriminate. Qed.
Lemma head_fuel on p : (do _ <- target_atom p; say on p) <> Er NoFuel.
Proof. unfold target_atom. destruct (_ <=? _)%Z; cbn [bind]; [discriminate|apply say_fuel]. Qed.

Lemma load_all_fuel w p fuel : forall found s d, (List.length s < fuel)%nat -> snd (load_all fuel w p found s d) <> Er NoFuel.
Proof.
  induction fuel as [|k IH]; intros found s d L; [lia|]. cbn [load_all]. pose proof (read_scheme_fuel (new_scheme 0 0) s) as F. destruct (read_scheme _ s) as [[[sc t]|]|e] eqn:E; cbn [snd]; [|discriminate|congruence].
  apply read_scheme_len in E. cbv zeta. pose proof (head_fuel (w_debug w) (nucleus_pid (s_Z sc) (s_A sc))) as G. destruct (bind _ _); cbn [snd]; [apply IH; lia|congruence].
Qed.

(** A scheme that was found is in the table. *)
Lemma load_all_found w p fuel : forall found s d d' r, load_all fuel w p found s d = (d', Ok r) -> (found = true -> entry_of p d <> None) -> r = true -> entry_of p d' <> None.
Proof.
  induction fuel as [|k IH]; intros found s d d' r H HF HR; cbn [load_all] in H; [discriminate|]. destruct (read_scheme _ s) as [[[sc t]|]|]; [|injection H as <- <-; auto|discriminate].
  cbv zeta in H. destruct (bind _ _); [|discriminate]. eapply IH; [exact H| |exact HR]. intros HO. rewrite add_entry. destruct (entry_of p d) as [e|] eqn:E; [discriminate|].
  apply orb_true_iff in HO. destruct HO as [HO|HO]; [apply HF in HO; congruence|]. rewrite HO. discriminate.
Qed.
