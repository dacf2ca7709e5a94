(** Property C30, continued: what is read from any text, and the ways reading fails. *)
From Coq Require Import List Ascii String ZArith Bool Lia Permutation Sorted.
From Coq Require Import Floats.SpecFloat.
From Verif Require Import Base Dbl Stream Pdg Event Levels LevelsProofs.
Import ListNotations.
Local Open Scope Z_scope.

(** A transition as written: energy, intensity, place of the final level. *)
Definition gtext : Type := (spec_float * spec_float * Z)%type.
(** A level as written: energy, twice the spin, parity, transitions. *)
Definition ltext : Type := (spec_float * Z * parity * list gtext)%type.

(** The text starts with some transitions. *)
Inductive gammas_text : bytes -> list gtext -> bytes -> Prop :=
| gt_nil s : gammas_text s [] s
| gt_cons s e s1 ri s2 i s3 l t : rd_dbl s = Some (e, s1) -> rd_dbl s1 = Some (ri, s2) -> rd_int s2 = Some (i, s3) ->
    gammas_text s3 l t -> gammas_text s ((e, ri, i) :: l) t.

(** The numbers before the transitions of a level, and how many transitions there are. *)
Inductive level_head : bytes -> spec_float -> Z -> parity -> Z -> bytes -> Prop :=
| lh s e s1 tj s2 pi s3 n t : rd_dbl s = Some (e, s1) -> rd_int s1 = Some (tj, s2) -> rd_parity s2 = Ok (Some (pi, s3)) -> rd_int s3 = Some (n, t) ->
    level_head s e tj pi n t.

(** The text starts with some levels, each with the number of transitions it announces (a
    negative number counts as none). *)
Inductive levels_text : bytes -> list ltext -> bytes -> Prop :=
| lt_nil s : levels_text s [] s
| lt_cons s e tj pi n s1 gs s2 l t : level_head s e tj pi n s1 -> gammas_text s1 gs s2 -> List.length gs = Z.to_nat n -> levels_text s2 l t ->
    levels_text s ((e, tj, pi, gs) :: l) t.

(** Each transition of a level points to one of the levels read so far, that level included. *)
Fixpoint in_range (k : nat) (l : list ltext) : Prop :=
  match l with
  | [] => True
  | (_, _, _, gs) :: r => Forall (fun g : gtext => 0 <= snd g < Z.of_nat (S k)) gs /\ in_range (S k) r
  end.

(** What a level holds, leaving out where its transitions go. *)
Definition content (v : level) : spec_float * Z * parity * list (spec_float * spec_float) :=
  (l_energy v, l_twoJ v, l_parity v, map (fun g => (g_energy g, g_ri g)) (l_gammas v)).
Definition written (x : ltext) : spec_float * Z * parity * list (spec_float * spec_float) :=
  let '(e, tj, pi, gs) := x in (e, tj, pi, map (fun g : gtext => (fst (fst g), snd (fst g))) gs).

Lemma level_at_spec i l : (exists p, level_at i l = Ok p /\ In p l /\ nth_error l (Z.to_nat i) = Some p /\ 0 <= i < Z.of_nat (List.length l)) \/ (level_at i l = Er StdRange /\ ~ (0 <= i < Z.of_nat (List.length l))).
Proof.
  unfold level_at. destruct (Z.ltb_spec i 0) as [H|H]; [right; split; [reflexivity|lia]|].
  destruct (nth_error l (Z.to_nat i)) as [p|] eqn:E.
  - left. exists p. split; [reflexivity|]. split; [exact (nth_error_In _ _ E)|]. split; [reflexivity|]. assert (Z.to_nat i < List.length l)%nat by (apply nth_error_Some; congruence). lia.
  - right. split; [reflexivity|]. apply nth_error_None in E. lia.
Qed.

Lemma add_gamma_length a g sc : List.length (s_levels (add_gamma a g sc)) = List.length (s_levels sc).
Proof. cbn [add_gamma s_levels]. apply map_length. Qed.

(** Reading transitions. *)
Lemma gammas_read : forall n a sc s,
  (forall sc' t, read_gammas n a sc s = Ok (sc', t) -> exists gs, gammas_text s gs t /\ List.length gs = n /\
     Forall (fun g : gtext => 0 <= snd g < Z.of_nat (List.length (s_levels sc))) gs /\
     s_Z sc' = s_Z sc /\ s_A sc' = s_A sc /\ s_next sc' = s_next sc /\ exists ends, List.length ends = n /\
     s_levels sc' = map (fun p => if Nat.eqb (fst p) a then (fst p, mkl (l_energy (snd p)) (l_twoJ (snd p)) (l_parity (snd p)) (l_gammas (snd p) ++ map (fun ge : gtext * nat => mkg (fst (fst (fst ge))) (snd (fst (fst ge))) (Some (snd ge))) (combine gs ends))) else p) (s_levels sc) /\
     Forall2 (fun (g : gtext) x => option_map fst (nth_error (s_levels sc) (Z.to_nat (snd g))) = Some x) gs ends) /\
  (forall e, read_gammas n a sc s = Er e -> exists gs t, gammas_text s gs t /\ (List.length gs <= n)%nat /\
     ((e = Undefined /\ (List.length gs < n)%nat /\ ~ exists g t', gammas_text t [g] t') \/
      (e = StdRange /\ exists gs' g, gs = gs' ++ [g] /\ ~ (0 <= snd g < Z.of_nat (List.length (s_levels sc)))))).
Proof.
  induction n as [|n IH]; intros a sc s.
  - split; [|discriminate]. intros sc' t H. cbn [read_gammas] in H. injection H as <- <-. exists []. split; [constructor|]. split; [reflexivity|]. split; [constructor|]. split; [reflexivity|]. split; [reflexivity|]. split; [reflexivity|]. exists []. split; [reflexivity|]. split; [|constructor].
    rewrite <- (map_id (s_levels sc)) at 1. apply map_ext. intros [q [e tj pi gs]]. cbn [combine map fst snd l_energy l_twoJ l_parity l_gammas]. rewrite app_nil_r. destruct (Nat.eqb q a); reflexivity.
  - cbn [read_gammas].
    destruct (rd_dbl s) as [[e s1]|] eqn:E1; cbn [obind].
    2:{ split; [discriminate|]. intros e H. injection H as <-. exists [], s. split; [constructor|]. split; [cbn; lia|]. left. split; [reflexivity|]. split; [cbn; lia|]. intros (g & t' & X). inversion X; congruence. }
    destruct (rd_dbl s1) as [[ri s2]|] eqn:E2; cbn [obind].
    2:{ split; [discriminate|]. intros e' H. injection H as <-. exists [], s. split; [constructor|]. split; [cbn; lia|]. left. split; [reflexivity|]. split; [cbn; lia|]. intros (g & t' & X). inversion X; congruence. }
    destruct (rd_int s2) as [[i s3]|] eqn:E3; cbn [obind].
    2:{ split; [discriminate|]. intros e' H. injection H as <-. exists [], s. split; [constructor|]. split; [cbn; lia|]. left. split; [reflexivity|]. split; [cbn; lia|]. intros (g & t' & X). inversion X; congruence. }
    destruct (level_at_spec i (s_levels sc)) as [(p & -> & IP & NP & RP)|[-> NR]]; cbn [bind].
    2:{ split; [discriminate|]. intros e' H. injection H as <-. exists [(e, ri, i)], s3. split; [econstructor; eauto; constructor|]. split; [cbn; lia|]. right. split; [reflexivity|]. exists [], (e, ri, i). split; [reflexivity|exact NR]. }
    destruct (IH a (add_gamma a (mkg e ri (Some (fst p))) sc) s3) as [IH1 IH2]. rewrite add_gamma_length in *. split.
    + intros sc' t H. destruct (IH1 _ _ H) as (gs & T & L & F & EZ & EA & EN & ends & LE & EL & FE). exists ((e, ri, i) :: gs). split; [econstructor; eauto|]. split; [cbn; lia|]. split; [constructor; assumption|].
      split; [exact EZ|]. split; [exact EA|]. split; [exact EN|]. exists (fst p :: ends). split; [cbn; lia|]. split.
      * rewrite EL. cbn [add_gamma s_levels]. rewrite map_map. apply map_ext. intros q. cbn [combine map fst snd]. destruct (Nat.eqb (fst q) a) eqn:Q; cbn [fst snd l_energy l_twoJ l_parity l_gammas]; rewrite Q; [|reflexivity].
        do 2 f_equal. rewrite <- app_assoc. reflexivity.
      * constructor; [cbn [snd]; rewrite NP; reflexivity|]. revert FE. clear. intros F. induction F as [|g x gs ends H _ IHF]; constructor; [|exact IHF]. rewrite <- H. cbn [add_gamma s_levels]. rewrite nth_error_map.
        destruct (nth_error (s_levels sc) (Z.to_nat (snd g))) as [q|]; [|reflexivity]. cbn [option_map]. destruct (Nat.eqb (fst q) a); reflexivity.
    + intros e' H. destruct (IH2 _ H) as (gs & t & T & L & D). exists ((e, ri, i) :: gs), t. split; [econstructor; eauto|]. split; [cbn; lia|].
      destruct D as [(-> & L' & N)|(-> & gs' & g & -> & N)]; [left; split; [reflexivity|]; split; [cbn; lia|exact N]|]. right. split; [reflexivity|]. exists ((e, ri, i) :: gs'), g. split; [reflexivity|exact N].
Qed.

Lemma add_level_perm lev sc : Permutation (s_levels (snd (add_level lev sc))) (s_levels sc ++ [(s_next sc, lev)]).
Proof. cbn [add_level snd s_levels]. apply insert_at_perm. Qed.

Lemma content_perm (l l' : list (nat * level)) : Permutation l l' -> Permutation (map (fun p => content (snd p)) l) (map (fun p => content (snd p)) l').
Proof. apply Permutation_map. Qed.

Lemma head_unique s e tj pi n t e' tj' pi' n' t' : level_head s e tj pi n t -> level_head s e' tj' pi' n' t' -> n = n' /\ t = t'.
Proof.
  intros [s0 x s1 y s2 z s3 m r A1 A2 A3 A4] H. inversion H as [? x' s1' y' s2' z' s3' m' r' B1 B2 B3 B4]; subst.
  assert (s1' = s1) as -> by congruence. assert (s2' = s2) as -> by congruence. assert (s3' = s3) as -> by congruence. split; congruence.
Qed.
Lemma more_gammas s gs t : gammas_text s gs t -> forall k, (List.length gs < k)%nat -> forall gs0 t0, gammas_text s gs0 t0 -> List.length gs0 = k -> exists g t', gammas_text t [g] t'.
Proof.
  induction 1 as [s|s e s1 ri s2 i s3 l t R1 R2 R3 T IH]; intros k L gs0 t0 T0 L0.
  - inversion T0 as [|? e s1 ri s2 i s3 l t R1 R2 R3 T]; subst; [cbn in *; lia|]. exists (e, ri, i), s3. econstructor; eauto. constructor.
  - inversion T0 as [|? e' s1' ri' s2' i' s3' l' t' R1' R2' R3' T']; subst; [cbn in *; lia|].
    assert (s1' = s1) as -> by congruence. assert (s2' = s2) as -> by congruence. assert (s3' = s3) as -> by congruence.
    apply (IH (List.length l')) with (gs0 := l') (t0 := t0); [cbn in *; lia|exact T'|reflexivity].
Qed.

(** Reading levels. *)
Lemma levels_read : forall n sc s, fresh_ok sc -> ordered (s_levels sc) ->
  (forall sc' t, read_levels n sc s = Ok (sc', t) -> exists ls, levels_text s ls t /\ List.length ls = n /\ in_range (List.length (s_levels sc)) ls /\
     s_Z sc' = s_Z sc /\ s_A sc' = s_A sc /\ ordered (s_levels sc') /\
     Permutation (map (fun p => content (snd p)) (s_levels sc')) (map (fun p => content (snd p)) (s_levels sc) ++ map written ls)) /\
  (forall e, read_levels n sc s = Er e -> exists ls t, levels_text s ls t /\ (List.length ls < n)%nat /\ in_range (List.length (s_levels sc)) ls /\
     ((e = MarleyErr /\ exists x s1 tj s2 c s3, rd_dbl t = Some (x, s1) /\ rd_int s1 = Some (tj, s2) /\ rd_char s2 = Some (c, s3) /\ parity_of_char c = Er MarleyErr) \/
      (e = StdRange /\ exists x tj pi m s1 gs g s2, level_head t x tj pi m s1 /\ gammas_text s1 (gs ++ [g]) s2 /\ (List.length gs < Z.to_nat m)%nat /\ ~ (0 <= snd g < Z.of_nat (S (List.length (s_levels sc) + List.length ls)))) \/
      (e = Undefined /\ ~ exists x t', levels_text t [x] t'))).
Proof.
  induction n as [|n IH]; intros sc s FO OR.
  - split; [|discriminate]. intros sc' t H. cbn [read_levels] in H. injection H as <- <-. exists []. split; [constructor|]. split; [reflexivity|]. split; [exact Logic.I|]. split; [reflexivity|]. split; [reflexivity|]. split; [exact OR|].
    cbn [map]. rewrite app_nil_r. apply Permutation_refl.
  - cbn [read_levels].
    assert (UND : forall e, (~ exists x t', levels_text s [x] t') -> @Er (scheme * bytes) Undefined = Er e -> exists ls t, levels_text s ls t /\ (List.length ls < S n)%nat /\ in_range (List.length (s_levels sc)) ls /\
     ((e = MarleyErr /\ exists x s1 tj s2 c s3, rd_dbl t = Some (x, s1) /\ rd_int s1 = Some (tj, s2) /\ rd_char s2 = Some (c, s3) /\ parity_of_char c = Er MarleyErr) \/
      (e = StdRange /\ exists x tj pi m s1 gs g s2, level_head t x tj pi m s1 /\ gammas_text s1 (gs ++ [g]) s2 /\ (List.length gs < Z.to_nat m)%nat /\ ~ (0 <= snd g < Z.of_nat (S (List.length (s_levels sc) + List.length ls)))) \/
      (e = Undefined /\ ~ exists x t', levels_text t [x] t'))).
    { intros e N H. injection H as <-. exists [], s. split; [constructor|]. split; [cbn; lia|]. split; [exact Logic.I|]. right. right. split; [reflexivity|exact N]. }
    destruct (rd_dbl s) as [[e s1]|] eqn:E1; cbn [obind].
    2:{ split; [discriminate|]. intros e. apply UND. intros (x & t' & X). inversion X; subst. match goal with H : level_head _ _ _ _ _ _ |- _ => inversion H; congruence end. }
    destruct (rd_int s1) as [[tj s2]|] eqn:E2; cbn [obind].
    2:{ split; [discriminate|]. intros e'. apply UND. intros (x & t' & X). inversion X; subst. match goal with H : level_head _ _ _ _ _ _ |- _ => inversion H; congruence end. }
    destruct (rd_parity s2) as [[[pi s3]|]|er] eqn:E3; cbn [bind].
    2:{ split; [discriminate|]. intros e'. apply UND. intros (x & t' & X). inversion X; subst. match goal with H : level_head _ _ _ _ _ _ |- _ => inversion H; congruence end. }
    2:{ split; [discriminate|]. intros e' H. injection H as <-. exists [], s. split; [constructor|]. split; [cbn; lia|]. split; [exact Logic.I|]. left.
        unfold rd_parity in E3. destruct (rd_char s2) as [[c s3]|] eqn:EC; [|discriminate]. destruct (parity_of_char c) as [p|ep] eqn:EP; [discriminate|]. cbn [bind] in E3. injection E3 as <-.
        assert (ep = MarleyErr) as -> by (unfold parity_of_char in EP; repeat match type of EP with context [if ?x then _ else _] => destruct x end; congruence).
        split; [reflexivity|]. exists e, s1, tj, s2, c, s3. auto. }
    destruct (rd_int s3) as [[ng s4]|] eqn:E4.
    2:{ split; [discriminate|]. intros e'. apply UND. intros (x & t' & X). inversion X; subst. match goal with H : level_head _ _ _ _ _ _ |- _ => inversion H; congruence end. }
    clear UND. assert (LH : level_head s e tj pi ng s4) by (econstructor; eauto).
    destruct (add_level (mkl e tj pi []) sc) as [a sc1] eqn:EA.
    assert (Ea : a = s_next sc) by (unfold add_level in EA; cbv zeta in EA; injection EA as <- _; reflexivity).
    pose proof (add_level_perm (mkl e tj pi []) sc) as PA. rewrite EA in PA. cbn [snd] in PA.
    destruct (add_level_ordered (mkl e tj pi []) sc FO OR) as (O1 & F1); rewrite EA in O1, F1; cbn [snd] in O1, F1.
    assert (L1 : List.length (s_levels sc1) = S (List.length (s_levels sc))) by (rewrite (Permutation_length PA), app_length; cbn [List.length]; lia).
    destruct (gammas_read (Z.to_nat ng) a sc1 s4) as [G1 G2].
    destruct (read_gammas (Z.to_nat ng) a sc1 s4) as [[sc2 s5]|er] eqn:EG; cbn [bind].
    2:{ split; [discriminate|]. intros e' H. injection H as <-. exists [], s. split; [constructor|]. split; [cbn; lia|]. split; [exact Logic.I|]. right.
        destruct (G2 _ eq_refl) as (gs & t & T & L & [(-> & L' & N)|(-> & gs' & g & -> & N)]).
        - right. split; [reflexivity|]. intros (x & t' & X). inversion X as [|? e0 tj0 pi0 n0 s10 gs0 s20 ? ? H1 H2 H3 H4]; subst. destruct (head_unique _ _ _ _ _ _ _ _ _ _ _ LH H1) as [<- <-].
          apply N. exact (more_gammas _ _ _ T _ L' _ _ H2 H3).
        - left. split; [reflexivity|]. exists e, tj, pi, ng, s4, gs', g, t. split; [exact LH|]. split; [exact T|]. split; [rewrite app_length in L; cbn in L; lia|]. rewrite L1 in N. cbn [List.length]. rewrite Nat.add_0_r. exact N. }
    destruct (G1 _ _ eq_refl) as (gs & T & L & F & EZ & EAA & EN & ends & LE & EL & _). clear G1 G2.
    assert (F2 : fresh_ok sc2). { unfold fresh_ok in *. rewrite EL, EN. apply Forall_map. revert F1. apply Forall_impl. intros q Hq. destruct (Nat.eqb (fst q) a); exact Hq. }
    assert (O2 : ordered (s_levels sc2)).
    { rewrite EL. apply ordered_map; [|exact O1]. intros q. destruct (Nat.eqb (fst q) a); split; reflexivity. }
    assert (L2 : List.length (s_levels sc2) = S (List.length (s_levels sc))) by (rewrite EL, map_length; exact L1).
    assert (CP : Permutation (map (fun p => content (snd p)) (s_levels sc2)) (map (fun p => content (snd p)) (s_levels sc) ++ [written (e, tj, pi, gs)])).
    { rewrite EL, map_map. eapply Permutation_trans; [apply Permutation_map; exact PA|]. rewrite map_app. cbn [map fst snd]. rewrite <- Ea, Nat.eqb_refl. cbn [snd content l_energy l_twoJ l_parity l_gammas app].
      apply Permutation_app.
      - apply Permutation_refl'. apply map_ext_in. intros q Hq. unfold fresh_ok in FO. rewrite Forall_forall in FO. specialize (FO q Hq). destruct (Nat.eqb_spec (fst q) a); [lia|reflexivity].
      - unfold content, written. cbn [l_energy l_twoJ l_parity l_gammas]. rewrite map_map. apply Permutation_refl'. do 2 f_equal.
        assert (LL : List.length gs = List.length ends) by congruence. revert LL. clear. revert ends. induction gs as [|g gs IH]; intros [|x ends] H; try discriminate; [reflexivity|]. cbn [combine map fst snd g_energy g_ri]. f_equal. apply IH. cbn in H. lia. }
    destruct (IH sc2 s5 F2 O2) as [I1 I2]. rewrite L2 in *.
    assert (RG : Forall (fun g : gtext => 0 <= snd g < Z.of_nat (S (List.length (s_levels sc)))) gs) by (rewrite <- L1; exact F).
    assert (KZ : s_Z sc1 = s_Z sc /\ s_A sc1 = s_A sc) by (unfold add_level in EA; cbv zeta in EA; injection EA as _ <-; split; reflexivity).
    split.
    + intros sc' t H. destruct (I1 _ _ H) as (ls & T' & LL & R & Z1 & A1 & O' & P). exists ((e, tj, pi, gs) :: ls). split; [econstructor; eauto|]. split; [cbn; lia|]. split; [split; [exact RG|exact R]|].
      split; [destruct KZ; congruence|]. split; [destruct KZ; congruence|]. split; [exact O'|]. cbn [map]. eapply Permutation_trans; [exact P|]. eapply Permutation_trans; [apply Permutation_app_tail; exact CP|]. rewrite <- app_assoc. apply Permutation_refl.
    + intros e' H. destruct (I2 _ H) as (ls & t & T' & LL & R & D). exists ((e, tj, pi, gs) :: ls), t. split; [econstructor; eauto|]. split; [cbn; lia|]. split; [split; [exact RG|exact R]|].
      destruct D as [D|[(-> & x & tj' & pi' & m & s1' & gs' & g & s2' & D1 & D2 & D3 & D4)|D]]; [left; exact D| |right; right; exact D].
      right. left. split; [reflexivity|]. exists x, tj', pi', m, s1', gs', g, s2'. split; [exact D1|]. split; [exact D2|]. split; [exact D3|]. cbn [List.length]. rewrite Nat.add_succ_r in *. rewrite Nat.add_succ_l in D4. exact D4.
Qed.

(** The header: proton number, mass number, number of levels. *)
Definition header (s : bytes) (z a n : Z) (t : bytes) : Prop := exists s1 s2, rd_int s = Some (z, s1) /\ rd_int s1 = Some (a, s2) /\ rd_int s2 = Some (n, t).

(** ** Theorems *)

(** From any text, a scheme that is read has the proton number and mass number written
    first, and as many levels as announced, with the energies, spins, parities, transition
    energies and intensities written there, in ascending order of energy whatever their order
    in the text. Every transition leads to a level that comes no later in the text. *)
Theorem C30_reads sc s sc' t : read_scheme sc s = Ok (Some (sc', t)) ->
  exists n r ls, header s (s_Z sc') (s_A sc') n r /\ levels_text r ls t /\ List.length ls = Z.to_nat n /\ in_range 0 ls /\
    Permutation (map (fun p => content (snd p)) (s_levels sc')) (map written ls) /\
    StronglySorted (fun p q => units (energy_of p) <= units (energy_of q)) (s_levels sc').
Proof.
  unfold read_scheme. intros H. destruct (rd_int s) as [[z s1]|] eqn:E1; cbn [obind] in H; [|discriminate]. destruct (rd_int s1) as [[a s2]|] eqn:E2; cbn [obind] in H; [|discriminate].
  destruct (rd_int s2) as [[n r]|] eqn:E3; cbn [obind] in H; [|discriminate].
  destruct (read_levels (Z.to_nat n) (mksc z a (s_next sc) []) r) as [x|] eqn:E; cbn [bind] in H; [|discriminate]. injection H as ->.
  destruct (levels_read (Z.to_nat n) (mksc z a (s_next sc) []) r) as [L _]; [constructor|constructor|]. destruct (L _ _ E) as (ls & T & LL & R & Z1 & A1 & O & P).
  exists n, r, ls. cbn [s_Z s_A s_levels map app List.length] in *. split; [exists s1, s2; rewrite Z1, A1; auto|]. split; [exact T|]. split; [exact LL|]. split; [exact R|]. split; [exact P|].
  revert O. unfold ordered. clear. intros O. induction O as [|p l O IH F]; constructor; [exact IH|]. revert F. apply Forall_impl. intros q B. unfold before in B. lia.
Qed.
Print Assumptions C30_reads.

(** Reading fails only at a place up to which the text is in order. There, a character that
    is not a parity gives a MARLEY error, a transition to a level that has not been read
    std::out_of_range, and in all other cases the next level is not complete and values
    that were never set are used. A text without a header leaves the scheme alone. *)
Theorem C30_failures sc s :
  (read_scheme sc s = Ok None <-> ~ exists z a n t, header s z a n t) /\
  (forall e, read_scheme sc s = Er e -> exists z a n r ls t, header s z a n r /\ levels_text r ls t /\ (List.length ls < Z.to_nat n)%nat /\ in_range 0 ls /\
    ((e = MarleyErr /\ exists x s1 tj s2 c s3, rd_dbl t = Some (x, s1) /\ rd_int s1 = Some (tj, s2) /\ rd_char s2 = Some (c, s3) /\ c <> "+"%char /\ c <> "-"%char) \/
     (e = StdRange /\ exists x tj pi m s1 gs g s2, level_head t x tj pi m s1 /\ gammas_text s1 (gs ++ [g]) s2 /\ (List.length gs < Z.to_nat m)%nat /\ ~ (0 <= snd g <= Z.of_nat (List.length ls))) \/
     (e = Undefined /\ ~ exists x t', levels_text t [x] t'))).
Proof.
  unfold read_scheme. destruct (rd_int s) as [[z s1]|] eqn:E1; cbn [obind].
  2:{ split; [|discriminate]. split; [|reflexivity]. intros _ (z & a & n & t & s1 & s2 & H & _). congruence. }
  destruct (rd_int s1) as [[a s2]|] eqn:E2; cbn [obind].
  2:{ split; [|discriminate]. split; [|reflexivity]. intros _ (z' & a & n & t & s1' & s2 & H & H' & _). congruence. }
  destruct (rd_int s2) as [[n r]|] eqn:E3; cbn [obind].
  2:{ split; [|discriminate]. split; [|reflexivity]. intros _ (z' & a' & n & t & s1' & s2' & H & H' & H''). assert (s1' = s1) as -> by congruence. assert (s2' = s2) as -> by congruence. congruence. }
  assert (HD : header s z a n r) by (exists s1, s2; auto).
  destruct (levels_read (Z.to_nat n) (mksc z a (s_next sc) []) r) as [_ L]; [constructor|constructor|].
  destruct (read_levels (Z.to_nat n) (mksc z a (s_next sc) []) r) as [x|e0] eqn:E; cbn [bind].
  - split; [|discriminate]. split; [discriminate|]. intros N. exfalso. apply N. eauto 6.
  - split; [split; [discriminate|intros N; exfalso; apply N; eauto 6]|]. intros e H. injection H as <-. destruct (L _ eq_refl) as (ls & t & T & LL & R & D). exists z, a, n, r, ls, t. cbn [s_levels List.length] in *.
    split; [exact HD|]. split; [exact T|]. split; [exact LL|]. split; [exact R|].
    destruct D as [(-> & x & s1' & tj & s2' & c & s3 & D1 & D2 & D3 & D4)|[(-> & x & tj & pi & m & s1' & gs & g & s2' & D1 & D2 & D3 & D4)|D]]; [| |right; right; exact D].
    + left. split; [reflexivity|]. exists x, s1', tj, s2', c, s3. split; [exact D1|]. split; [exact D2|]. split; [exact D3|]. split; intros ->; discriminate D4.
    + right. left. split; [reflexivity|]. exists x, tj, pi, m, s1', gs, g, s2'. split; [exact D1|]. split; [exact D2|]. split; [exact D3|]. lia.
Qed.
Print Assumptions C30_failures.

(** Each of the ways occurs, and two levels out of order are put in order. *)
Example C30_reads_case : 
  read_scheme (new_scheme 0 0) [] = Ok None /\
  read_scheme (new_scheme 0 0) (b "18 40 1 2.0 4 x 0") = Er MarleyErr /\
  read_scheme (new_scheme 0 0) (b "18 40 1 2.0 4 + 1 2.0 1.0 1") = Er StdRange /\
  read_scheme (new_scheme 0 0) (b "18 40 2 2.0 4 + 0") = Er Undefined /\
  exists sc t, read_scheme (new_scheme 0 0) (b "18 40 2 2.0 4 + 0 1.0 0 - 1 0.5 1.0 1") = Ok (Some (sc, t)) /\ map (fun p => l_twoJ (snd p)) (s_levels sc) = [0; 4].
Proof. repeat (split; [vm_compute; reflexivity|]). eexists. eexists. split; vm_compute; reflexivity. Qed.
