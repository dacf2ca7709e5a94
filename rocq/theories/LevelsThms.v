(** Theorems about reaction tables, level matching and decay schemes (C25, C26,
    C28, C30). *)
From Coq Require Import List Ascii String ZArith Bool Lia Sorted Permutation.
From Coq Require Import Floats.SpecFloat.
From Verif Require Import Base Dbl DigitsProofs DblProofs Stream StreamProofs Pdg Names React Event EventSpec Levels
  LevelsProofs LevelsTextProofs MatEl.
Import ListNotations.
Local Open Scope Z_scope.

(** Sample doubles. *)
Definition dd (m e : Z) : spec_float := dec_to_dbl false m e.

(** ** C28: decay schemes stay sorted *)

(** A plain record of what was added: levels in the order of addition, named by
    their position in it. *)
Definition record (l : list (nat * level)) (c : edit) : list (nat * level) :=
  match c with
  | AddLevel lev => l ++ [(List.length l, lev)]
  | AddGamma a g => map (fun p => if Nat.eqb (fst p) a
      then (fst p, mkl (l_energy (snd p)) (l_twoJ (snd p)) (l_parity (snd p)) (l_gammas (snd p) ++ [g])) else p) l
  end.

(** After any history the scheme holds exactly the levels and gammas that were
    added, under unchanged addresses, in ascending order of energy; of levels with
    the same energy the last one added comes first. *)
Theorem C28_sorted : forall z a cs,
  let s := fold_left apply_edit cs (new_scheme z a) in
  Permutation (s_levels s) (fold_left record cs []) /\
  StronglySorted (fun p q => units (energy_of p) < units (energy_of q) \/
     units (energy_of p) = units (energy_of q) /\ (fst q < fst p)%nat) (s_levels s) /\
  s_Z s = z /\ s_A s = a.
Proof.
  intros z a cs. cbv zeta. split.
  - assert (K : forall cs s l, Permutation (s_levels s) l -> s_next s = List.length l ->
      Permutation (s_levels (fold_left apply_edit cs s)) (fold_left record cs l)).
    { clear cs. induction cs as [|c cs IH]; intros s l HP HN; [exact HP|]. cbn [fold_left].
      apply IH; destruct c as [lev|x g]; cbn [apply_edit record].
      - unfold add_level. cbn [snd s_levels]. rewrite HN. etransitivity; [apply insert_at_perm|].
        apply Permutation_app; [exact HP|reflexivity].
      - unfold add_gamma. cbn [s_levels]. apply Permutation_map. exact HP.
      - unfold add_level. cbn [snd s_next]. rewrite app_length. cbn [List.length]. lia.
      - unfold add_gamma. cbn [s_next]. rewrite map_length. exact HN. }
    apply K; [constructor|reflexivity].
  - split.
    + apply history_ordered; constructor.
    + assert (K : forall cs s, s_Z (fold_left apply_edit cs s) = s_Z s /\ s_A (fold_left apply_edit cs s) = s_A s).
      { clear cs. induction cs as [|c cs IH]; intros s; [split; reflexivity|]. cbn [fold_left].
        destruct (IH (apply_edit s c)) as [-> ->]. destruct c; split; reflexivity. }
      apply K.
Qed.
Print Assumptions C28_sorted.

(** The closest-level query after any history: null exactly for an empty scheme,
    otherwise a level of the scheme whose computed distance is the smallest; and on
    an exact tie the upper level. *)
Theorem C28_closest : forall z a cs e,
  let s := fold_left apply_edit cs (new_scheme z a) in
  match closest_level e s with
  | None => s_levels s = []
  | Some p => In p (s_levels s) /\ forall q, In q (s_levels s) ->
      dist e (energy_of p) <= dist e (energy_of q) /\
      (Z.abs (units e - units (energy_of q)) = Z.abs (units e - units (energy_of p)) -> units (energy_of q) <= units (energy_of p))
  end.
Proof.
  intros z a cs e. cbv zeta. pose proof (history_ordered cs (new_scheme z a)) as H.
  destruct H as [H _]; [constructor|constructor|].
  exact (closest_level_spec e (fold_left apply_edit cs (new_scheme z a)) H).
Qed.
Print Assumptions C28_closest.

(** Without rounding trouble (differences of at most 53 bits) the distance is
    the exact one. *)
Theorem C28_distance : forall x y, Z.abs (units x - units y) < 2 ^ 53 -> dist x y = Z.abs (units x - units y).
Proof.
  intros x y H. rewrite dist_pos. unfold round_pos. set (z := Z.abs _) in *. cbv zeta.
  assert (Hk : Z.max 0 (Z.log2 z - 52) = 0).
  { destruct (Z.eq_dec z 0) as [->|N]; [reflexivity|].
    assert (Z.log2 z < 53) by (apply Z.log2_lt_pow2; lia). lia. }
  rewrite Hk, Z.pow_0_r. pose proof (rne_div_exact z 1 ltac:(lia)) as E. rewrite Z.mul_1_r in E. rewrite E. lia.
Qed.
Print Assumptions C28_distance.

Definition lv (e : spec_float) : level := mkl e 0 true [].
Definition hist1 : list edit :=
  [AddLevel (lv (dd 2 0)); AddLevel (lv (dd 0 0)); AddLevel (lv (dd 1 0)); AddGamma 0 (mkg (dd 1 0) (dd 1 0) (Some 2%nat)); AddLevel (lv (dd 1 0))].
Example C28_example :
  let s := fold_left apply_edit hist1 (new_scheme 19 40) in
  map fst (s_levels s) = [1; 3; 2; 0]%nat /\
  option_map fst (closest_level (dd 15 (-1)) s) = Some 0%nat /\
  option_map fst (closest_level (dd 14 (-1)) s) = Some 2%nat /\
  option_map fst (closest_level (dd 99 0) s) = Some 0%nat.
Proof. vm_compute. repeat split. Qed.

(** ** C30: decay schemes survive printing and reading *)

(** Any stream format that reads back as a rounding [rnd], any scheme whose printed
    level energies are strictly ascending and whose gammas go down: same levels,
    same gammas, same destinations, and the text after it is left alone. *)
Theorem C30_round_trip : forall fmt rnd (P : spec_float -> Prop),
  (forall w x t, forallb is_space w = true -> P x -> match t with c :: _ => is_space c = true | [] => True end ->
     rd_dbl (w ++ fmt x ++ t) = Some (rnd x, t)) ->
  forall s sc t, scheme_ok P s -> gammas_down s ->
  StronglySorted (fun x y => units x < units y) (map (fun p => rnd (energy_of p)) (s_levels s)) ->
  exists s', read_scheme sc (print_scheme fmt s ++ t) = Ok (Some (s', [nl] ++ t)) /\ shape s' = shape_of rnd s.
Proof. exact read_print. Qed.
Print Assumptions C30_round_trip.

(** With 17 digits nothing at all is lost. *)
Theorem C30_lossless : forall s sc t, scheme_ok finite_dbl s -> gammas_down s ->
  StronglySorted (fun x y => units x < units y) (map energy_of (s_levels s)) ->
  exists s', read_scheme sc (print_scheme show_e17 s ++ t) = Ok (Some (s', [nl] ++ t)) /\ shape s' = shape s.
Proof. intros s sc t H1 H2 H3. apply (read_print show_e17 (fun x => x) finite_dbl rd_dbl_show); assumption. Qed.
Print Assumptions C30_lossless.

Definition sch1 : scheme := fold_left apply_edit
  [AddLevel (lv (dd 0 0)); AddLevel (mkl (dd 1460849 (-6)) 4 true []); AddGamma 1 (mkg (dd 1460849 (-6)) (dd 1 0) (Some 0%nat));
   AddLevel (mkl (dd 25 (-1)) 3 false []); AddGamma 2 (mkg (dd 25 (-1)) (dd 3 (-1)) (Some 0%nat));
   AddGamma 2 (mkg (dd 1039151 (-6)) (dd 7 (-1)) (Some 1%nat))] (new_scheme 18 40).
(** Tactics for closed schemes. *)
Ltac scheme_ok_tac := split; [vm_compute; split; congruence|]; split; [vm_compute; split; congruence|];
  split; [vm_compute; congruence|];
  repeat (apply Forall_cons; [split; [vm_compute; split; reflexivity|split; [vm_compute; split; congruence|split; [vm_compute; congruence|
    repeat (apply Forall_cons; [split; vm_compute; split; reflexivity|]); apply Forall_nil]]]|]); apply Forall_nil.
Definition gammas_down_b (s : scheme) : bool :=
  forallb (fun ip : nat * (nat * level) => forallb (fun g => (0 <=? end_index (s_levels s) g) && (end_index (s_levels s) g <=? Z.of_nat (fst ip)))
    (l_gammas (snd (snd ip)))) (combine (seq 0 (List.length (s_levels s))) (s_levels s)).
Lemma combine_nth : forall {A} (l : list A) k i x, nth_error l i = Some x -> In ((k + i)%nat, x) (combine (seq k (List.length l)) l).
Proof.
  intros A l. induction l as [|y l IH]; intros k [|i] x H; cbn [nth_error] in H; try discriminate; cbn [List.length seq combine].
  - injection H as ->. left. f_equal. lia.
  - right. replace (k + S i)%nat with (S k + i)%nat by lia. apply IH. exact H.
Qed.
Lemma gammas_down_check : forall s, gammas_down_b s = true -> gammas_down s.
Proof.
  intros s H i p g Hp Hg. unfold gammas_down_b in H. rewrite forallb_forall in H.
  specialize (H (i, p) (combine_nth _ 0 i p Hp)). cbn [fst snd] in H. rewrite forallb_forall in H. specialize (H g Hg).
  apply andb_true_iff in H as [H1 H2]. apply Z.leb_le in H1, H2. lia.
Qed.

Definition lvls1 := Eval vm_compute in s_levels sch1.
Lemma lvls1_eq : s_levels sch1 = lvls1.
Proof. vm_compute. reflexivity. Qed.
Example C30_example : scheme_ok finite_dbl sch1 /\ gammas_down sch1 /\
  StronglySorted (fun x y => units x < units y) (map energy_of (s_levels sch1)) /\ List.length (s_levels sch1) = 3%nat.
Proof.
  split; [|split; [|split]].
  - unfold scheme_ok. rewrite lvls1_eq. unfold lvls1. scheme_ok_tac.
  - apply gammas_down_check. vm_compute. reflexivity.
  - rewrite lvls1_eq. unfold lvls1. cbn [map].
    repeat (apply SSorted_cons; [|repeat (apply Forall_cons; [vm_compute; reflexivity|]); apply Forall_nil]). apply SSorted_nil.
  - vm_compute. reflexivity.
Qed.

(** Two levels with the same printed energy: a gamma can change its destination. *)
Definition sch2 : scheme := fold_left apply_edit
  [AddLevel (mkl (dd 1 0) 0 true []); AddLevel (mkl (dd 1 0) 2 true []); AddLevel (mkl (dd 2 0) 4 true []);
   AddGamma 2 (mkg (dd 1 0) (dd 1 0) (Some 1%nat))] (new_scheme 18 40).
Definition lvls2 := Eval vm_compute in s_levels sch2.
Lemma lvls2_eq : s_levels sch2 = lvls2.
Proof. vm_compute. reflexivity. Qed.
Theorem C30_equal_energies_refuted : exists s', read_scheme (new_scheme 0 0) (print_scheme show_e17 sch2) = Ok (Some (s', [nl])) /\
  shape s' <> shape sch2 /\ scheme_ok finite_dbl sch2 /\ gammas_down sch2.
Proof.
  eexists. split; [vm_compute; reflexivity|]. split; [vm_compute; congruence|]. split.
  - unfold scheme_ok. rewrite lvls2_eq. unfold lvls2. scheme_ok_tac.
  - apply gammas_down_check. vm_compute. reflexivity.
Qed.

(** A gamma without end level is printed with index -1 and the text is then
    rejected; so is a gamma that goes up. *)
Theorem C30_no_end_refuted :
  read_scheme (new_scheme 0 0) (print_scheme show_e17 (fold_left apply_edit
    [AddLevel (lv (dd 1 0)); AddGamma 0 (mkg (dd 1 0) (dd 1 0) None)] (new_scheme 18 40))) = Er StdRange /\
  read_scheme (new_scheme 0 0) (print_scheme show_e17 (fold_left apply_edit
    [AddLevel (lv (dd 1 0)); AddLevel (lv (dd 2 0)); AddGamma 0 (mkg (dd 1 0) (dd 1 0) (Some 1%nat))] (new_scheme 18 40))) = Er StdRange.
Proof. split; vm_compute; reflexivity. Qed.

(** ** C26: matching matrix elements to levels *)

Definition bound (thr : spec_float) (m : matel) : Prop := units (m_energy m) <= units thr.

(** [m'] is [m] after matching: unbound elements have no level, bound ones the
    nearest level, ties to the upper one; nothing else changes. *)
Definition matched (sc : scheme) (thr : spec_float) (m m' : matel) : Prop :=
  m_energy m' = m_energy m /\ m_strength m' = m_strength m /\ m_type m' = m_type m /\
  match m_level m' with
  | None => ~ bound thr m
  | Some p => bound thr m /\ In p (s_levels sc) /\ forall q, In q (s_levels sc) ->
      dist (m_energy m) (energy_of p) <= dist (m_energy m) (energy_of q) /\
      (Z.abs (units (m_energy m) - units (energy_of q)) = Z.abs (units (m_energy m) - units (energy_of p)) ->
       units (energy_of q) <= units (energy_of p))
  end.

Definition addresses (ms : list matel) : list nat :=
  flat_map (fun m => match m_level m with Some p => [fst p] | None => [] end) ms.

Lemma match_levels_spec : forall sc thr todo pre out, ordered (s_levels sc) ->
  Forall (fun m => m_level m = None) todo -> NoDup (addresses pre) ->
  match_levels sc thr pre todo = Ok out ->
  exists out', out = pre ++ out' /\ Forall2 (matched sc thr) todo out' /\ NoDup (addresses out).
Proof.
  intros sc thr todo. induction todo as [|m r IH]; intros pre out HO HN HD H; cbn [match_levels] in H.
  - injection H as <-. exists []. split; [symmetry; apply app_nil_r|]. split; [constructor|exact HD].
  - inversion HN as [|? ? Hm HN']; subst. unfold dlt in H. destruct (Z.ltb_spec (units thr) (units (m_energy m))) as [L|L].
    + apply IH in H; auto.
      2:{ unfold addresses in *. rewrite flat_map_app. cbn. rewrite app_nil_r. exact HD. }
      destruct H as (o & -> & HF & HD'). exists (set_level None m :: o). split; [rewrite <- app_assoc; reflexivity|].
      split; [|exact HD']. constructor; [|exact HF]. repeat split. cbn [set_level m_level]. unfold bound. lia.
    + destruct (closest_level (m_energy m) sc) as [p|] eqn:Ec; [|discriminate H].
      destruct (existsb (uses_level (fst p)) (pre ++ m :: r)) eqn:Ee; [discriminate H|].
      apply IH in H; auto.
      2:{ unfold addresses in *. rewrite flat_map_app. cbn. rewrite <- (rev_involutive (_ ++ _)). apply NoDup_rev.
          rewrite rev_app_distr. cbn. constructor; [|apply NoDup_rev; exact HD]. rewrite <- in_rev. intros Hin.
          apply in_flat_map in Hin as (x & Hx & Hin). destruct (m_level x) as [y|] eqn:Ex; [|destruct Hin].
          destruct Hin as [Hin|[]]. rewrite existsb_app in Ee. apply orb_false_iff in Ee as [Ee _].
          assert (Et : existsb (uses_level (fst p)) pre = true); [|congruence].
          apply existsb_exists. exists x. split; [exact Hx|]. unfold uses_level. rewrite Ex. apply Nat.eqb_eq. exact Hin. }
      destruct H as (o & -> & HF & HD'). exists (set_level (Some p) m :: o). split; [rewrite <- app_assoc; reflexivity|].
      split; [|exact HD']. constructor; [|exact HF]. repeat split; [exact L|..];
        pose proof (closest_level_spec (m_energy m) sc HO) as HC; rewrite Ec in HC; destruct HC as [HC1 HC2]; [exact HC1|..];
        destruct (HC2 q H) as [K1 K2]; [exact K1|exact K2].
Qed.

(** Whatever table and whatever decay scheme, built by any history: if matching
    succeeds the result is as specified, with no level used twice. *)
Theorem C26_matched : forall z a cs thr ms out,
  let sc := fold_left apply_edit cs (new_scheme z a) in
  Forall (fun m => m_level m = None) ms -> match_levels sc thr [] ms = Ok out ->
  Forall2 (matched sc thr) ms out /\ NoDup (addresses out).
Proof.
  intros z a cs thr ms out sc HN H. destruct (history_ordered cs (new_scheme z a)) as [HO _]; [constructor|constructor|].
  apply match_levels_spec in H; [|exact HO|exact HN|constructor]. destruct H as (o & -> & H1 & H2). split; assumption.
Qed.
Print Assumptions C26_matched.

(** It fails exactly if two bound elements have the same closest level; then it is a
    marley::Error. *)
Definition wanted (sc : scheme) (thr : spec_float) (ms : list matel) : list nat :=
  flat_map (fun m => if dlt thr (m_energy m) then [] else
    match closest_level (m_energy m) sc with Some p => [fst p] | None => [] end) ms.

Theorem C26_duplicates : forall sc thr ms, s_levels sc <> [] -> ordered (s_levels sc) ->
  Forall (fun m => m_level m = None) ms ->
  (NoDup (wanted sc thr ms) -> exists out, match_levels sc thr [] ms = Ok out) /\
  (~ NoDup (wanted sc thr ms) -> match_levels sc thr [] ms = Er MarleyErr).
Proof.
  intros sc thr ms Hne HO HN.
  assert (K : forall todo pre, Forall (fun m => m_level m = None) todo ->
    (NoDup (addresses pre ++ wanted sc thr todo) -> exists out, match_levels sc thr pre todo = Ok out) /\
    (NoDup (addresses pre) -> ~ NoDup (addresses pre ++ wanted sc thr todo) -> match_levels sc thr pre todo = Er MarleyErr)).
  { induction todo as [|m r IH]; intros pre HN'; cbn [match_levels wanted flat_map].
    - split; [intros _; eexists; reflexivity|]. rewrite app_nil_r. intros A B. contradiction.
    - inversion HN' as [|? ? Hm HNr]; subst. fold (wanted sc thr r).
      destruct (dlt thr (m_energy m)) eqn:Eb.
      + specialize (IH (pre ++ [set_level None m]) HNr). unfold addresses in IH at 1 2 3. rewrite flat_map_app in IH. cbn in IH.
        rewrite app_nil_r in IH. fold (addresses pre) in IH. exact IH.
      + pose proof (closest_level_spec (m_energy m) sc HO) as HC.
        destruct (closest_level (m_energy m) sc) as [p|]; [|contradiction].
        assert (Eu : existsb (uses_level (fst p)) (pre ++ m :: r) = existsb (Nat.eqb (fst p)) (addresses pre)).
        { rewrite existsb_app. cbn [existsb]. unfold uses_level at 2. rewrite Hm. cbn [orb].
          assert (Er : existsb (uses_level (fst p)) r = false).
          { clear - HNr. induction HNr as [|x r Hx _ IHr]; [reflexivity|]. cbn [existsb]. unfold uses_level at 1. rewrite Hx. exact IHr. }
          rewrite Er, orb_false_r. clear. induction pre as [|x pre IHp]; [reflexivity|]. cbn [existsb]. unfold addresses. cbn [flat_map].
          fold (addresses pre). rewrite existsb_app, IHp. f_equal. unfold uses_level. destruct (m_level x) as [y|]; [|reflexivity].
          cbn. rewrite orb_false_r. apply Nat.eqb_sym. }
        rewrite Eu. cbn [app].
        specialize (IH (pre ++ [set_level (Some p) m]) HNr). unfold addresses in IH at 1 2 3. rewrite flat_map_app in IH. cbn in IH.
        fold (addresses pre) in IH. rewrite <- app_assoc in IH. cbn [app] in IH.
        destruct (existsb (Nat.eqb (fst p)) (addresses pre)) eqn:Ee.
        * apply existsb_exists in Ee as (y & Hy & Ey). apply Nat.eqb_eq in Ey. subst y. split.
          -- intros Hd. exfalso. apply (NoDup_remove_2 _ _ _ Hd). apply in_or_app. left. exact Hy.
          -- reflexivity.
        * split; [exact (proj1 IH)|]. intros A B. apply (proj2 IH); [|exact B].
          rewrite <- (rev_involutive (_ ++ _)). apply NoDup_rev.
          rewrite rev_app_distr. cbn. constructor; [|apply NoDup_rev; exact A]. rewrite <- in_rev. intros Hin.
          assert (Et : existsb (Nat.eqb (fst p)) (addresses pre) = true); [|congruence].
          apply existsb_exists. exists (fst p). split; [exact Hin|apply Nat.eqb_refl]. }
  destruct (K ms [] HN) as [K1 K2]. cbn [addresses flat_map app] in *. split; [exact K1|]. apply K2. constructor.
Qed.
Print Assumptions C26_duplicates.

Definition me (e : spec_float) : matel := mkm e (dd 1 0) 1 None.
Example C26_example :
  (exists out, match_levels sch1 (dd 5 0) [] [me (dd 1 (-1)); me (dd 15 (-1)); me (dd 9 0)] = Ok out /\ addresses out = [0; 1]%nat) /\
  match_levels sch1 (dd 5 0) [] [me (dd 1 (-1)); me (dd 2 (-1))] = Er MarleyErr.
Proof. split; [eexists; split; [vm_compute; reflexivity|]; vm_compute; reflexivity|]. vm_compute. reflexivity. Qed.
