(** C91: iterators over a member of objects, and searches and copies made with them. *)
From Coq Require Import List ZArith Bool Lia Reals Lra Sorted.
From Coq Require Import Floats.SpecFloat.
From Flocq Require Import Core.
From Flocq Require IEEE754.BinarySingleNaN.
From Verif Require Import Base Dbl EventSpec DblArith Levels LevelsProofs LevelsThms Iter.
Import ListNotations.
Local Open Scope Z_scope.

(** ** Walks *)

Inductive walk_op := Read | Step (n : Z) | ReadStep (n : Z).

Section walks.
  Context {Obj A : Type} (mem : Obj -> A).

  (** What a program sees that reads *i, moves the iterator by a number, or does both with a postfix
      operator. *)
  Fixpoint walk (v : list (option Obj)) (i : iter) (ops : list walk_op) : res (list A) :=
    match ops with
    | [] => Ok []
    | Read :: r => do x <- deref mem v i; do xs <- walk v i r; Ok (x :: xs)
    | Step n :: r => do j <- advance v i n; walk v j r
    | ReadStep n :: r => do (o, j) <- post v i n; do x <- deref mem v o; do xs <- walk v j r; Ok (x :: xs)
    end.

  (** The same on a list with a gap in it, that moves past one element at a time: the elements
      before the gap, the last first, and those after it. *)
  Fixpoint forward (k : nat) (z : list A * list A) : option (list A * list A) :=
    match k, z with
    | O, _ => Some z
    | S k, (l, x :: r) => forward k (x :: l, r)
    | S _, (_, []) => None
    end.
  Fixpoint backward (k : nat) (z : list A * list A) : option (list A * list A) :=
    match k, z with
    | O, _ => Some z
    | S k, (x :: l, r) => backward k (l, x :: r)
    | S _, ([], _) => None
    end.
  Definition shift (n : Z) (z : list A * list A) : option (list A * list A) :=
    if 0 <=? n then forward (Z.to_nat n) z else backward (Z.to_nat (- n)) z.
  Fixpoint gap_walk (z : list A * list A) (ops : list walk_op) : res (list A) :=
    match ops with
    | [] => Ok []
    | Read :: r => match snd z with [] => Er Undefined | x :: _ => do xs <- gap_walk z r; Ok (x :: xs) end
    | Step n :: r => match shift n z with None => Er Undefined | Some z' => gap_walk z' r end
    | ReadStep n :: r =>
        match shift n z, snd z with
        | Some z', x :: _ => do xs <- gap_walk z' r; Ok (x :: xs)
        | _, _ => Er Undefined
        end
    end.

  Lemma forward_spec k : forall l r, match forward k (l, r) with
    | Some (l', r') => rev l' ++ r' = rev l ++ r /\ List.length l' = (List.length l + k)%nat
    | None => (List.length r < k)%nat
    end.
  Proof.
    induction k as [|k IH]; intros l r; cbn [forward]; [split; [reflexivity|lia]|]. destruct r as [|x r]; [cbn; lia|].
    specialize (IH (x :: l) r). destruct (forward k (x :: l, r)) as [[l' r']|].
    - destruct IH as [-> ->]. cbn [rev List.length]. rewrite <- app_assoc. split; [reflexivity|lia].
    - cbn [List.length]. lia.
  Qed.
  Lemma backward_spec k : forall l r, match backward k (l, r) with
    | Some (l', r') => rev l' ++ r' = rev l ++ r /\ (List.length l' + k)%nat = List.length l
    | None => (List.length l < k)%nat
    end.
  Proof.
    induction k as [|k IH]; intros l r; cbn [backward]; [split; [reflexivity|lia]|]. destruct l as [|x l]; [cbn; lia|].
    specialize (IH l (x :: r)). destruct (backward k (l, x :: r)) as [[l' r']|].
    - destruct IH as [-> E]. cbn [rev List.length]. rewrite <- app_assoc. split; [reflexivity|lia].
    - cbn [List.length]. lia.
  Qed.

  Lemma advance_shift (objs : list Obj) (i n : Z) l r : map mem objs = rev l ++ r -> i = Z.of_nat (List.length l) ->
    match shift n (l, r) with
    | Some (l', r') => advance (map Some objs) i n = Ok (i + n) /\ map mem objs = rev l' ++ r' /\ i + n = Z.of_nat (List.length l')
    | None => advance (map Some objs) i n = Er Undefined
    end.
  Proof.
    intros E I0. assert (N : List.length objs = (List.length l + List.length r)%nat) by (rewrite <- (map_length mem objs), E, app_length, rev_length; reflexivity).
    unfold shift, advance. rewrite map_length, N. destruct (Z.leb_spec 0 n) as [L|L].
    - pose proof (forward_spec (Z.to_nat n) l r) as F. destruct (forward (Z.to_nat n) (l, r)) as [[l' r']|].
      + destruct F as [F1 F2]. assert (N' : (List.length l' + List.length r' = List.length l + List.length r)%nat) by (rewrite <- (rev_length l'), <- (rev_length l), <- !app_length, F1; reflexivity).
        destruct (Z.ltb_spec (i + n) 0); [lia|]. destruct (Z.ltb_spec (Z.of_nat (List.length l + List.length r)) (i + n)); [lia|]. cbn [orb].
        split; [reflexivity|]. split; [congruence|lia].
      + destruct (Z.ltb_spec (Z.of_nat (List.length l + List.length r)) (i + n)); [|lia]. rewrite orb_true_r. reflexivity.
    - pose proof (backward_spec (Z.to_nat (- n)) l r) as F. destruct (backward (Z.to_nat (- n)) (l, r)) as [[l' r']|].
      + destruct F as [F1 F2]. destruct (Z.ltb_spec (i + n) 0); [lia|]. destruct (Z.ltb_spec (Z.of_nat (List.length l + List.length r)) (i + n)); [lia|]. cbn [orb].
        split; [reflexivity|]. split; [congruence|lia].
      + destruct (Z.ltb_spec (i + n) 0); [|lia]. reflexivity.
  Qed.
  Lemma deref_gap (objs : list Obj) (i : Z) l r : map mem objs = rev l ++ r -> i = Z.of_nat (List.length l) ->
    deref mem (map Some objs) i = match r with [] => Er Undefined | x :: _ => Ok x end.
  Proof.
    intros E I0. unfold deref. destruct (Z.ltb_spec i 0); [lia|]. rewrite I0, Nat2Z.id, nth_error_map.
    assert (X : nth_error (map mem objs) (List.length l) = nth_error r 0).
    { rewrite E, nth_error_app2 by (rewrite rev_length; lia). rewrite rev_length, Nat.sub_diag. reflexivity. }
    rewrite nth_error_map in X. destruct (nth_error objs (List.length l)) as [o|]; cbn [option_map] in *; destruct r; cbn [nth_error] in X; congruence.
  Qed.

  (** The iterators behave like a place in the list of the members: whatever is read and however
      it is moved, the same values come out, and the same programs are undefined. *)
Theorem C91_walk (objs : list Obj) ops l r : map mem objs = rev l ++ r ->
    walk (map Some objs) (Z.of_nat (List.length l)) ops = gap_walk (l, r) ops.
  Proof.
    revert l r. induction ops as [|op ops IH]; intros l r E; [reflexivity|]. destruct op as [|n|n]; cbn [walk gap_walk snd].
    - rewrite (deref_gap objs _ l r E eq_refl). destruct r as [|x r]; [reflexivity|]. cbn [bind]. rewrite (IH l (x :: r) E). reflexivity.
    - pose proof (advance_shift objs _ n l r E eq_refl) as S1. destruct (shift n (l, r)) as [[l' r']|]; [|rewrite S1; reflexivity].
      destruct S1 as (-> & E' & ->). cbn [bind]. apply IH, E'.
    - unfold post. pose proof (advance_shift objs _ n l r E eq_refl) as S1. destruct (shift n (l, r)) as [[l' r']|]; [|rewrite S1; reflexivity].
      destruct S1 as (-> & E' & S2). cbn [bind]. rewrite (deref_gap objs _ l r E eq_refl). destruct r as [|x r]; [reflexivity|]. cbn [bind]. rewrite S2, (IH l' r' E'). reflexivity.
  Qed.
End walks.
Print Assumptions C91_walk.

(** Copying a range of members gives all of them, in order: the weights of a discrete
    distribution are those of the objects. *)
Theorem C91_collect {Obj A} (mem : Obj -> A) (objs : list Obj) :
  collect mem (map Some objs) (S (List.length objs)) 0 (Z.of_nat (List.length objs)) = Ok (map mem objs).
Proof.
  assert (G : forall r l, objs = l ++ r -> collect mem (map Some objs) (S (List.length r)) (Z.of_nat (List.length l)) (Z.of_nat (List.length objs)) = Ok (map mem r)).
  { assert (ST : forall f i e, collect mem (map Some objs) (S f) i e = (if equal i e then Ok []
        else do x <- deref mem (map Some objs) i; do j <- advance (map Some objs) i 1; do r <- collect mem (map Some objs) f j e; Ok (x :: r))) by reflexivity.
    induction r as [|o r IH]; intros l E; rewrite ST; unfold equal.
    - rewrite E, app_nil_r, Z.eqb_refl. reflexivity.
    - destruct (Z.eqb_spec (Z.of_nat (List.length l)) (Z.of_nat (List.length objs))) as [X|_]; [rewrite E, app_length in X; cbn [List.length] in X; lia|].
      assert (D : deref mem (map Some objs) (Z.of_nat (List.length l)) = Ok (mem o)).
      { rewrite (deref_gap mem objs _ (rev (map mem l)) (map mem (o :: r))); [reflexivity| |rewrite rev_length, map_length; reflexivity].
        rewrite rev_involutive, E, map_app. reflexivity. }
      rewrite D. cbn [bind]. unfold advance. destruct (Z.ltb_spec (Z.of_nat (List.length l) + 1) 0); [lia|].
      destruct (Z.ltb_spec (Z.of_nat (List.length (map Some objs))) (Z.of_nat (List.length l) + 1)) as [X|_]; [rewrite map_length, E, app_length in X; cbn [List.length] in X; lia|].
      cbn [orb bind]. specialize (IH (l ++ [o])). rewrite <- app_assoc in IH. specialize (IH E). rewrite app_length in IH. cbn [List.length] in IH.
      replace (Z.of_nat (List.length l) + 1) with (Z.of_nat (List.length l + 1)) by lia. cbn [List.length] in IH |- *. rewrite IH. reflexivity. }
  exact (G objs [] eq_refl).
Qed.
Print Assumptions C91_collect.

(** ** The halving search *)

(** On any vector without null pointers, whatever the comparison, the search is defined. It
    compares at most 1 + log2 n elements of n, and ends at a place with nothing smaller there and something
    smaller just before it. *)
Theorem C91_search {Obj A} (mem : Obj -> A) (objs : list Obj) less fuel : Z.of_nat (List.length objs) < 2 ^ Z.of_nat fuel ->
  exists k, search mem (map Some objs) less (S fuel) 0 (Z.of_nat (List.length objs)) = Ok (Z.of_nat k) /\ (k <= List.length objs)%nat /\
    (forall o, nth_error objs k = Some o -> less (mem o) = false) /\
    (forall j o, k = S j -> nth_error objs j = Some o -> less (mem o) = true).
Proof.
  assert (G : forall fuel first len, Z.of_nat len < 2 ^ Z.of_nat fuel -> (first + len <= List.length objs)%nat ->
    exists k, search mem (map Some objs) less (S fuel) (Z.of_nat first) (Z.of_nat len) = Ok (Z.of_nat k) /\ (first <= k <= first + len)%nat /\
      ((k < first + len)%nat -> forall o, nth_error objs k = Some o -> less (mem o) = false) /\
      (forall j o, k = S j -> (first < k)%nat -> nth_error objs j = Some o -> less (mem o) = true)).
  { clear fuel. induction fuel as [|fuel IH]; intros first len HF HL; cbn [search].
    - change (2 ^ Z.of_nat 0) with 1 in HF. destruct (Z.ltb_spec 0 (Z.of_nat len)); [lia|]. exists first. repeat split; try lia.
    - destruct (Z.ltb_spec 0 (Z.of_nat len)) as [L|L]; [|exists first; repeat split; lia].
      rewrite Nat2Z.inj_succ, Z.pow_succ_r in HF by lia.
      rewrite Z.shiftr_div_pow2 by lia. change (2 ^ 1) with 2. set (half := (len / 2)%nat).
      assert (HH : Z.of_nat len / 2 = Z.of_nat half) by (unfold half; rewrite Nat2Z.inj_div; reflexivity). rewrite HH.
      pose proof (Z.div_mod (Z.of_nat len) 2 ltac:(lia)) as DM. pose proof (Z.mod_pos_bound (Z.of_nat len) 2 ltac:(lia)) as MB. rewrite HH in DM.
      assert (AD : forall i n, 0 <= i + n <= Z.of_nat (List.length objs) -> advance (map Some objs) i n = Ok (i + n)).
      { intros i n B. unfold advance. rewrite map_length. destruct (Z.ltb_spec (i + n) 0); [lia|]. destruct (Z.ltb_spec (Z.of_nat (List.length objs)) (i + n)); [lia|reflexivity]. }
      rewrite AD by lia. cbn [bind]. replace (Z.of_nat first + Z.of_nat half) with (Z.of_nat (first + half)) by lia.
      destruct (nth_error objs (first + half)) as [o|] eqn:EO; [|apply nth_error_None in EO; lia].
      assert (D : deref mem (map Some objs) (Z.of_nat (first + half)) = Ok (mem o)).
      { unfold deref. destruct (Z.ltb_spec (Z.of_nat (first + half)) 0); [lia|]. rewrite Nat2Z.id, nth_error_map, EO. reflexivity. }
      rewrite D. cbn [bind]. destruct (less (mem o)) eqn:EL.
      + rewrite AD by lia. cbn [bind]. replace (Z.of_nat (first + half) + 1) with (Z.of_nat (S (first + half))) by lia.
        replace (Z.of_nat len - Z.of_nat half - 1) with (Z.of_nat (len - half - 1)) by lia.
        destruct (IH (S (first + half)) (len - half - 1)%nat ltac:(lia) ltac:(lia)) as (k & K1 & K2 & K3 & K4). cbn [search] in K1. exists k. rewrite K1.
        split; [reflexivity|]. split; [lia|]. split; [intros B; apply K3; lia|]. intros j o' -> _ EJ.
        destruct (Nat.eq_dec j (first + half)) as [->|NE]; [congruence|]. apply (K4 j o' eq_refl); [lia|exact EJ].
      + destruct (IH first half ltac:(lia) ltac:(lia)) as (k & K1 & K2 & K3 & K4). cbn [search] in K1. exists k. rewrite K1.
        split; [reflexivity|]. split; [lia|]. split; [|exact K4]. intros B o' EJ.
        destruct (Nat.eq_dec k (first + half)) as [->|NE]; [congruence|]. apply K3; [lia|exact EJ]. }
  intros H. destruct (G fuel 0%nat (List.length objs) H ltac:(lia)) as (k & K1 & K2 & K3 & K4). exists k. split; [exact K1|]. split; [lia|].
  split; [|intros j o E EJ; apply (K4 j o E); [lia|exact EJ]]. intros o EO. apply K3; [|exact EO]. cbn. apply nth_error_Some. congruence.
Qed.
Print Assumptions C91_search.

(** ** Levels *)

(** Comparing finite doubles as IEEE 754 says is comparing what the model of levels calls their
    units. *)
Lemma val_units x : finite_dbl x -> val x = (IZR (units x) * bpow radix2 (-1074))%R.
Proof.
  intros [HF HV]. destruct x as [s|s| |s m e]; try discriminate HF; cbn [units]; unfold val; cbn [BinarySingleNaN.SF2R].
  - rewrite Rmult_0_l. reflexivity.
  - unfold valid_dbl, valid_binary, bounded, canonical_mantissa, SpecFloat.fexp in HV. apply andb_prop in HV as [HV _]. apply Zeq_bool_eq in HV.
    assert (E : -1074 <= e) by (unfold SpecFloat.emin in HV; lia).
    unfold F2R. cbn [Fnum Fexp]. rewrite !mult_IZR.
    replace (bpow radix2 e) with (IZR (2 ^ (e + 1074)) * bpow radix2 (-1074))%R.
    + destruct s; cbn [cond_Zopp]; [change (- Z.pos m) with (-1 * Z.pos m); rewrite mult_IZR|]; ring.
    + change 2 with (radix_val radix2) at 1. rewrite IZR_Zpower by lia. rewrite <- bpow_plus. f_equal. lia.
Qed.

Theorem C91_compare x y : finite_dbl x -> finite_dbl y -> dlt x y = SFltb x y.
Proof.
  intros Hx Hy. pose proof (ltb_finite x y Hx Hy) as L. rewrite (val_units x Hx), (val_units y Hy) in L.
  pose proof (bpow_gt_0 radix2 (-1074)) as P. unfold dlt. destruct (Z.ltb_spec (units x) (units y)) as [U|U].
  - symmetry. apply L. apply Rmult_lt_compat_r; [exact P|]. apply IZR_lt. exact U.
  - destruct (SFltb x y); [|reflexivity]. exfalso. pose proof (proj1 L eq_refl) as B. apply IZR_le in U. nra.
Qed.
Print Assumptions C91_compare.

(** The scheme that add_level makes by searching with the iterators is the one of the other
    claims, after any history with finite energies; so its order is that of C28. *)
Definition finite_edit (c : edit) : Prop := match c with AddLevel lev => finite_dbl (l_energy lev) | AddGamma _ _ => True end.

Lemma index_first e ls k : StronglySorted (fun p q => units (energy_of p) <= units (energy_of q)) ls -> (k <= List.length ls)%nat ->
  (forall p, nth_error ls k = Some p -> dlt (energy_of p) e = false) -> (forall j p, k = S j -> nth_error ls j = Some p -> dlt (energy_of p) e = true) ->
  lower_bound_index e ls = k.
Proof.
  revert k. induction ls as [|p ls IH]; intros k HS HK H1 H2; cbn [lower_bound_index]; [cbn in HK; lia|].
  inversion HS as [|? ? HS' HA]; subst. destruct k as [|k].
  - rewrite (H1 p eq_refl). reflexivity.
  - assert (P : dlt (energy_of p) e = true).
    { destruct k as [|j]; [exact (H2 0%nat p eq_refl eq_refl)|]. cbn [List.length] in HK. destruct (nth_error ls j) as [q|] eqn:EQ; [|apply nth_error_None in EQ; lia].
      pose proof (H2 (S j) q eq_refl EQ) as B. rewrite Forall_forall in HA. specialize (HA q (nth_error_In _ _ EQ)). unfold dlt in *. apply Z.ltb_lt in B. apply Z.ltb_lt. lia. }
    rewrite P. f_equal. apply IH; [exact HS'|cbn [List.length] in HK; lia|exact H1|]. intros j q -> EQ. exact (H2 (S j) q eq_refl EQ).
Qed.

Lemma searched_ok e ls : finite_dbl e -> Forall (fun p => finite_dbl (energy_of p)) ls -> StronglySorted (fun p q => units (energy_of p) <= units (energy_of q)) ls ->
  searched_index e ls = Ok (Z.of_nat (lower_bound_index e ls)).
Proof.
  intros He HL HS. unfold searched_index, minus. rewrite Z.sub_0_r.
  replace (pointers ls) with (map Some (map snd ls)) by (unfold pointers; rewrite map_map; reflexivity).
  rewrite <- (map_length snd ls). destruct (C91_search l_energy (map snd ls) (fun x => SFltb x e) (List.length (map snd ls))) as (k & -> & K1 & K2 & K3).
  { assert (P : forall n : nat, Z.of_nat n < 2 ^ Z.of_nat n) by (intros n; apply Z.pow_gt_lin_r; lia). apply P. }
  cbn [bind]. rewrite Z.sub_0_r. do 2 f_equal. symmetry. rewrite map_length in K1. rewrite Forall_forall in HL.
  apply index_first; [exact HS|exact K1| |].
  - intros p EP. rewrite C91_compare; [|apply HL; exact (nth_error_In _ _ EP)|exact He]. apply (K2 (snd p)). rewrite nth_error_map, EP. reflexivity.
  - intros j p E EP. rewrite C91_compare; [|apply HL; exact (nth_error_In _ _ EP)|exact He]. apply (K3 j (snd p) E). rewrite nth_error_map, EP. reflexivity.
Qed.

Theorem C91_levels z a cs : Forall finite_edit cs -> searched_edits (new_scheme z a) cs = Ok (fold_left apply_edit cs (new_scheme z a)).
Proof.
  intros H. assert (FIN : forall cs s, Forall finite_edit cs -> Forall (fun p => finite_dbl (energy_of p)) (s_levels s) ->
    Forall (fun p => finite_dbl (energy_of p)) (s_levels (fold_left apply_edit cs s))).
  { clear. induction cs as [|c cs IH]; intros s HC HS; [exact HS|]. inversion HC as [|? ? Hc HC']; subst. cbn [fold_left]. apply IH; [exact HC'|].
    destruct c as [lev|x g]; cbn [apply_edit].
    - unfold add_level. cbn [snd s_levels]. generalize (lower_bound_index (l_energy lev) (s_levels s)) as i. revert HS. generalize (s_levels s) as ls.
      induction ls as [|p ls IHl]; intros HS [|i]; cbn [insert_at].
      + constructor; [exact Hc|constructor].
      + constructor; [exact Hc|constructor].
      + constructor; [exact Hc|exact HS].
      + inversion HS; subst. constructor; [assumption|apply IHl; assumption].
    - unfold add_gamma. cbn [s_levels]. apply Forall_forall. intros p HP. apply in_map_iff in HP as (q & <- & HQ). rewrite Forall_forall in HS. specialize (HS q HQ).
      destruct (Nat.eqb (fst q) x); exact HS. }
  assert (SRT : forall cs, StronglySorted (fun p q => units (energy_of p) <= units (energy_of q)) (s_levels (fold_left apply_edit cs (new_scheme z a)))).
  { clear. intros cs. destruct (C28_sorted z a cs) as (_ & S1 & _). induction S1 as [|p l S1 IH HA]; constructor; [exact IH|]. eapply Forall_impl; [|exact HA]. intros q [Q|[Q _]]; lia. }
  revert H. induction cs as [|c cs IH] using rev_ind; intros H; [reflexivity|]. apply Forall_app in H as [H1 H2].
  assert (APP : forall l1 l2 s, searched_edits s (l1 ++ l2) = do s' <- searched_edits s l1; searched_edits s' l2).
  { clear. induction l1 as [|c l1 IH]; intros l2 s; [reflexivity|]. cbn [app searched_edits]. destruct (searched_edit s c); [|reflexivity]. cbn [bind]. apply IH. }
  rewrite APP, (IH H1), fold_left_app. cbn [bind searched_edits fold_left]. set (s := fold_left apply_edit cs (new_scheme z a)) in *.
  inversion H2 as [|? ? Hc _]; subst. destruct c as [lev|x g]; cbn [searched_edit apply_edit]; [|reflexivity].
  unfold searched_add. rewrite searched_ok; [|exact Hc|apply FIN; [exact H1|constructor]|apply SRT]. cbn [bind]. rewrite Nat2Z.id. reflexivity.
Qed.
Print Assumptions C91_levels.

(** With a level whose energy is not a number the order is lost: after 1, NaN, 0.5 and 3 MeV the
    level at 3 MeV comes before the one at 1 MeV. *)
Definition at_energy (x : spec_float) : edit := AddLevel (mkl x 0 true []).
Theorem C91_nan_refuted : exists s, searched_edits (new_scheme 18 40) (map at_energy [dd 1 0; S754_nan; dd 5 (-1); dd 3 0]) = Ok s /\
  map energy_of (s_levels s) = [dd 5 (-1); dd 3 0; S754_nan; dd 1 0] /\ SFltb (dd 1 0) (dd 3 0) = true.
Proof. eexists. split; [vm_compute; reflexivity|]. split; vm_compute; reflexivity. Qed.
Print Assumptions C91_nan_refuted.

Example C91_case : Forall finite_edit (map at_energy [dd 1 0; dd 5 (-1); dd 3 0; dd 2 0]) /\
  (exists s, searched_edits (new_scheme 18 40) (map at_energy [dd 1 0; dd 5 (-1); dd 3 0; dd 2 0]) = Ok s /\ map energy_of (s_levels s) = [dd 5 (-1); dd 1 0; dd 2 0; dd 3 0]) /\
  walk l_energy (pointers [(0%nat, mkl (dd 1 0) 0 true []); (1%nat, mkl (dd 2 0) 0 true [])]) 0 [ReadStep 1; Read; Step 1; Step (-2); Read] = Ok [dd 1 0; dd 2 0; dd 1 0] /\
  collect l_energy (pointers [(0%nat, mkl (dd 1 0) 0 true []); (1%nat, mkl (dd 2 0) 0 true [])]) 3 0 2 = Ok [dd 1 0; dd 2 0].
Proof.
  split; [repeat constructor; vm_compute; reflexivity|]. split; [eexists; split; vm_compute; reflexivity|]. split; vm_compute; reflexivity.
Qed.
