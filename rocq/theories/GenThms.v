(** Properties C34 and C35: the generator's bookkeeping and total cross sections. *)
From Coq Require Import List ZArith Reals Bool Lia Lra Psatz Sorted.
From Verif Require Import Base Pdg Sample SampleProofs SampleThms Quad QuadThms Target TargetThms Gen.
Import ListNotations.
Open Scope R_scope.

(** ** Vocabulary *)

(** What a user may do with a generator between two events. *)
Inductive gop :=
| OAdd (r : option rxn) | OClear | OSource (s : option nsource) | OTarget (t : option target) | OWeight (w : bool)
| OPdf (E : R) | OSample (safety maximum : R) (draws : nat -> R * R) (u : R) (fuel : nat).

(** The state after an operation, also when it throws. *)
Definition gstep (g : gstate) (o : gop) : gstate :=
  match o with
  | OAdd r => fst (add_reaction g r)
  | OClear => clear_reactions g
  | OSource s => fst (set_source g s)
  | OTarget t => fst (set_target g t)
  | OWeight w => set_weight_flux g w
  | OPdf E => match E_pdf g E with Ok (xs, _) => set_xs g xs | Er _ => g end
  | OSample sf mx d u fuel => match sample_reaction g sf mx d u fuel with Ok (g', _, _) => g' | Er _ => g end
  end.

(** What the operations ask for: the reactions added since the last clearing, in order; the
    last source and target given; the last flag. *)
Definition want_rx (rx : list rxn) (o : gop) : list rxn :=
  match o with OAdd (Some r) => rx ++ [r] | OClear => [] | _ => rx end.
Definition want_source (s : nsource) (o : gop) : nsource := match o with OSource (Some s') => s' | _ => s end.
Definition want_target (t : option target) (o : gop) : option target := match o with OTarget (Some t') => Some t' | _ => t end.
Definition want_weight (w : bool) (o : gop) : bool := match o with OWeight w' => w' | _ => w end.

(** A reaction as the reaction classes implement it: no cross section for another
    projectile, none negative. *)
Definition sound (r : rxn) : Prop := (forall pdg E, pdg <> x_proj r -> x_xs r pdg E = 0) /\ (forall pdg E, 0 <= x_xs r pdg E).
Definition good_target (t : option target) : Prop := match t with Some l => forall n, 0 <= atom_fraction l n | None => True end.

(** The fraction of the target made of an atom; without a target every atom counts fully. *)
Definition fraction (t : option target) (n : Z) : R := match t with Some l => atom_fraction l n | None => 1 end.

(** ** Helpers *)

Lemma store_ok (j : nat) x l : (j < length l)%nat -> store j x l = Ok (firstn j l ++ x :: skipn (S j) l).
Proof.
  revert j. induction l as [|y l IH]; intros j H; [cbn in H; lia|]. destruct j as [|j]; [reflexivity|]. cbn [store]. rewrite IH by (cbn in H; lia). reflexivity.
Qed.

Lemma sum_reactions_ok g E rx pre rest acc : length rest = length rx ->
  sum_reactions g E rx (length pre) (pre ++ rest) acc = Ok (pre ++ map (weighted_xs g E) rx, acc + sumR (map (weighted_xs g E) rx)).
Proof.
  revert pre rest acc. induction rx as [|r rx IH]; intros pre rest acc H; cbn [sum_reactions map sumR].
  - destruct rest; [|discriminate]. rewrite Rplus_0_r. reflexivity.
  - destruct rest as [|y rest]; [discriminate|]. rewrite store_ok by (rewrite app_length; cbn [length]; lia). cbn [bind].
    assert (X : firstn (length pre) (pre ++ y :: rest) ++ weighted_xs g E r :: skipn (S (length pre)) (pre ++ y :: rest) = (pre ++ [weighted_xs g E r]) ++ rest).
    { rewrite firstn_app, Nat.sub_diag, firstn_all. cbn [firstn]. rewrite app_nil_r. replace (S (length pre)) with (length (pre ++ [y])) by (rewrite app_length; cbn; lia).
      replace (pre ++ y :: rest) with ((pre ++ [y]) ++ rest) by (rewrite <- app_assoc; reflexivity). rewrite skipn_app, skipn_all, Nat.sub_diag. rewrite <- app_assoc. reflexivity. }
    rewrite X. replace (S (length pre)) with (length (pre ++ [weighted_xs g E r])) by (rewrite app_length; cbn; lia).
    rewrite IH by (cbn in H; lia). rewrite <- app_assoc, Rplus_assoc. reflexivity.
Qed.

Definition slots (g : gstate) : Prop := length (gn_xs g) = length (gn_rx g).

Lemma E_pdf_ok g E : slots g ->
  E_pdf g E = Ok (map (weighted_xs g E) (gn_rx g),
    let sum := sumR (map (weighted_xs g E) (gn_rx g)) in
    if gn_weight g then sum * ns_pdf (gn_source g) E / gn_norm g
    else if Rle_dec sum 0 then 0 else ns_pdf (gn_source g) E / gn_norm g).
Proof.
  intros H. unfold E_pdf. pose proof (sum_reactions_ok g E (gn_rx g) [] (gn_xs g) 0 H) as X. cbn [length app] in X. rewrite X. cbn [bind]. rewrite Rplus_0_l. cbv zeta.
  destruct (gn_weight g); [reflexivity|]. destruct (Rle_dec _ 0); reflexivity.
Qed.

Lemma normalize_keeps g : slots g -> let g' := fst (normalize g) in
  slots g' /\ gn_rx g' = gn_rx g /\ gn_source g' = gn_source g /\ gn_target g' = gn_target g /\ gn_weight g' = gn_weight g /\ gn_hold g' = gn_hold g.
Proof.
  intros H. cbv zeta. unfold normalize. destruct (gn_hold g) eqn:HH; [cbn [fst]; auto 10|].
  rewrite E_pdf_ok by exact H. cbv zeta. cbn [fst]. unfold slots, set_norm, set_xs, set_max. cbn [gn_rx gn_xs gn_source gn_target gn_weight gn_hold].
  rewrite map_length. auto 10.
Qed.

Lemma step_keeps g o : slots g -> let g' := gstep g o in
  slots g' /\ gn_rx g' = want_rx (gn_rx g) o /\ gn_source g' = want_source (gn_source g) o /\ gn_target g' = want_target (gn_target g) o /\
  gn_weight g' = want_weight (gn_weight g) o /\ gn_hold g' = gn_hold g.
Proof.
  intros H. destruct o as [[r|]| |[s|]|[t|]|w|E|sf mx d u fuel]; cbv zeta; cbn [gstep want_rx want_source want_target want_weight].
  - unfold add_reaction. match goal with |- context [normalize ?x] => pose proof (normalize_keeps x) as N; set (g1 := x) in * end.
    destruct N as (A & B & C & D & F & G); [unfold slots, g1 in *; cbn [gn_xs gn_rx]; rewrite !app_length, H; reflexivity|]. split; [exact A|]. rewrite B, C, D, F, G. auto 10.
  - cbn. auto 10.
  - unfold slots. cbn. auto 10.
  - unfold set_source. cbv zeta. match goal with |- context [normalize ?x] => pose proof (normalize_keeps x) as N; set (g1 := x) in * end. cbn [gn_rx] in *.
    destruct (gn_rx g1) eqn:E1; unfold g1 in E1; cbn [gn_rx] in E1; [cbn [fst]; unfold slots, g1; cbn; rewrite E1; unfold slots in H; rewrite E1 in H; auto 10|].
    destruct N as (A & B & C & D & F & G); [exact H|]. split; [exact A|]. rewrite B, C, D, F, G. auto 10.
  - cbn. auto 10.
  - unfold set_target. cbv zeta. match goal with |- context [normalize ?x] => pose proof (normalize_keeps x) as N; set (g1 := x) in * end. cbn [gn_rx] in *.
    destruct (gn_rx g1) eqn:E1; unfold g1 in E1; cbn [gn_rx] in E1; [cbn [fst]; unfold slots, g1; cbn; rewrite E1; unfold slots in H; rewrite E1 in H; auto 10|].
    destruct N as (A & B & C & D & F & G); [exact H|]. split; [exact A|]. rewrite B, C, D, F, G. auto 10.
  - cbn. auto 10.
  - cbn. auto 10.
  - rewrite (E_pdf_ok g E H). unfold slots, set_xs. cbn [gn_rx gn_xs gn_source gn_target gn_weight gn_hold]. rewrite map_length. auto 10.
  - unfold sample_reaction. destruct (gn_rx g) as [|r0 rx0] eqn:ER; [rewrite ER; auto 10|].
    destruct (rejection_sample _ _ _ _ _ _ _ _) as [[E m]|e]; cbn [bind]; [|rewrite ER; auto 10]. rewrite (E_pdf_ok g E H). cbn [bind]. cbv zeta.
    destruct (Nat.ltb _ _); [|rewrite ER; auto 10]. unfold slots, set_max, set_xs. cbn [gn_rx gn_xs gn_source gn_target gn_weight gn_hold]. rewrite map_length, ER. auto 10.
Qed.

(** ** C34 *)

(** After any operations, whether or not some of them threw, there is one cross-section slot
    per reaction; the reactions, the source, the target and the flag are exactly the ones
    asked for. *)
Theorem C34_bookkeeping ops : let g := fold_left gstep ops new_generator in
  length (gn_xs g) = length (gn_rx g) /\ gn_rx g = fold_left want_rx ops [] /\ gn_source g = fold_left want_source ops default_source /\
  gn_target g = fold_left want_target ops None /\ gn_weight g = fold_left want_weight ops true.
Proof.
  cbv zeta. assert (G : forall ops g, slots g -> let g' := fold_left gstep ops g in slots g' /\ gn_rx g' = fold_left want_rx ops (gn_rx g) /\
    gn_source g' = fold_left want_source ops (gn_source g) /\ gn_target g' = fold_left want_target ops (gn_target g) /\ gn_weight g' = fold_left want_weight ops (gn_weight g)).
  { clear ops. induction ops as [|o ops IH]; intros g H; cbv zeta; cbn [fold_left]; [auto 10|]. destruct (step_keeps g o H) as (A & B & C & D & F & _).
    specialize (IH (gstep g o) A). cbv zeta in IH. rewrite B, C, D, F in IH. exact IH. }
  exact (G ops new_generator eq_refl).
Qed.
Print Assumptions C34_bookkeeping.

Lemma reach_slots ops : slots (fold_left gstep ops new_generator).
Proof. exact (proj1 (C34_bookkeeping ops)). Qed.

(** Evaluating the density never runs out of slots. It is the flux times the cross section
    per target atom over the normalisation, or the flux alone where some reaction is
    possible; the slots then hold the cross sections at that energy. *)
Lemma weighted_is g E r : weighted_xs g E r = fraction (gn_target g) (x_atom r) * x_xs r (ns_pid (gn_source g)) E.
Proof. unfold weighted_xs, fraction. destruct (gn_target g); ring. Qed.

Theorem C34_density ops E : let g := fold_left gstep ops new_generator in
  let sigma := fun r => fraction (gn_target g) (x_atom r) * x_xs r (ns_pid (gn_source g)) E in
  exists v, E_pdf g E = Ok (map sigma (gn_rx g), v) /\
    (gn_weight g = true -> v = sumR (map sigma (gn_rx g)) * ns_pdf (gn_source g) E / gn_norm g) /\
    (gn_weight g = false -> 0 < sumR (map sigma (gn_rx g)) -> v = ns_pdf (gn_source g) E / gn_norm g) /\
    (gn_weight g = false -> sumR (map sigma (gn_rx g)) <= 0 -> v = 0).
Proof.
  cbv zeta. pose proof (reach_slots ops) as H. set (g := fold_left gstep ops new_generator) in *. rewrite (E_pdf_ok g E H). cbv zeta.
  rewrite (map_ext (weighted_xs g E) (fun r => fraction (gn_target g) (x_atom r) * x_xs r (ns_pid (gn_source g)) E)) by (intros r; apply weighted_is).
  set (S := sumR _). eexists. split; [reflexivity|]. destruct (gn_weight g); [split; [reflexivity|split; discriminate]|].
  split; [discriminate|]. destruct (Rle_dec S 0); split; intros _ H'; try reflexivity; lra.
Qed.
Print Assumptions C34_density.

Lemma weighted_nonneg g E r : good_target (gn_target g) -> sound r -> 0 <= weighted_xs g E r.
Proof. intros Ht [_ Hs]. rewrite weighted_is. apply Rmult_le_pos; [|apply Hs]. unfold fraction, good_target in *. destruct (gn_target g); [apply Ht|lra]. Qed.

(** A reaction is sampled only if its projectile is the source's, its atom is in the target
    and its cross section at the sampled energy is positive; the energy lies in the range of
    the source. (Draws of exactly zero, which the engine gives with negligible probability,
    are excluded: see C57_zero_draw_refuted.) *)
Theorem C34_sampled ops sf mx d u fuel g' E i : let g := fold_left gstep ops new_generator in
  Forall sound (gn_rx g) -> good_target (gn_target g) -> 0 < gn_norm g -> (forall x, 0 <= ns_pdf (gn_source g) x) -> ns_min (gn_source g) <= ns_max (gn_source g) ->
  1 <= sf -> 0 < mx -> match gn_max g with Some m => 0 < m | None => True end -> (forall k, 0 <= fst (d k) <= 1 /\ 0 < snd (d k) <= 1) -> 0 < u <= 1 ->
  sample_reaction g sf mx d u fuel = Ok (g', E, i) ->
  ns_min (gn_source g) <= E <= ns_max (gn_source g) /\ 0 < ns_pdf (gn_source g) E /\
  exists r, nth_error (gn_rx g) i = Some r /\ x_proj r = ns_pid (gn_source g) /\ 0 < x_xs r (x_proj r) E /\ 0 < fraction (gn_target g) (x_atom r).
Proof.
  cbv zeta. intros HS HT HN HF Hl Hsf Hmx Hm Hd Hu. pose proof (reach_slots ops) as H. set (g := fold_left gstep ops new_generator) in *.
  unfold sample_reaction. destruct (gn_rx g) as [|r0 rx0] eqn:ER; [discriminate|]. rewrite <- ER in *. clear r0 rx0 ER.
  destruct (rejection_sample _ _ _ _ _ _ _ _) as [[E0 m]|e] eqn:RS; cbn [bind]; [|discriminate]. rewrite (E_pdf_ok g E0 H). cbn [bind]. cbv zeta.
  destruct (Nat.ltb_spec (discrete (map (weighted_xs g E0) (gn_rx g)) u) (length (gn_rx g))) as [LI|LI]; [|discriminate]. intros X. injection X as _ <- <-.
  assert (GP : forall k, good_pair (d k)) by (intros k; unfold good_pair; destruct (Hd k); lra).
  pose proof (C36_accepted _ _ _ _ _ _ _ _ _ _ Hl GP RS) as A. cbv zeta in A.
  set (start := match gn_max g with Some q => q | None => mx * sf end) in *. assert (HST : 0 < start) by (unfold start; destruct (gn_max g); [exact Hm|nra]).
  destruct (A ltac:(lra) Hsf) as (A1 & A2 & A3 & n & top & B1 & B2 & B3 & B4 & B5 & B6 & _). split; [exact A1|].
  assert (TP : forall k, (k <= n)%nat -> start <= top k). { induction k as [|k IH]; intros Hk; [rewrite B2; lra|]. specialize (IH ltac:(lia)). pose proof (B3 k ltac:(lia)). lra. }
  assert (V : 0 < E_density g E0).
  { pose proof (TP n ltac:(lia)). destruct (Hd n) as [_ D2]. eapply Rlt_le_trans; [|exact B6]. apply Rmult_lt_0_compat; lra. }
  unfold E_density in V. rewrite (E_pdf_ok g E0 H) in V. cbv zeta in V.
  assert (NN : nonneg (map (weighted_xs g E0) (gn_rx g))).
  { apply Forall_map. revert HS. apply Forall_impl. intros r Hr. apply weighted_nonneg; assumption. }
  assert (SP : 0 < sumR (map (weighted_xs g E0) (gn_rx g)) /\ 0 < ns_pdf (gn_source g) E0).
  { pose proof (sumR_nonneg _ NN) as S0. pose proof (HF E0) as F0. pose proof (Rinv_0_lt_compat _ HN) as IN. unfold Rdiv in V.
    destruct (gn_weight g).
    - set (S := sumR _) in *. set (F := ns_pdf _ _) in *. destruct (Rle_lt_or_eq_dec _ _ S0) as [|Z]; [|rewrite <- Z in V; lra]. destruct (Rle_lt_or_eq_dec _ _ F0) as [|Z]; [split; assumption|]. rewrite <- Z in V. lra.
    - destruct (Rle_dec _ 0) as [|L]; [lra|]. split; [lra|]. destruct (Rle_lt_or_eq_dec _ _ F0) as [|Z]; [assumption|]. rewrite <- Z in V. lra. }
  destruct SP as [SP FP]. split; [exact FP|].
  destruct (C57_positive _ u NN SP Hu) as (w & W1 & W2). rewrite nth_error_map in W1. destruct (nth_error (gn_rx g) _) as [r|] eqn:ER; [|discriminate].
  cbn [option_map] in W1. injection W1 as <-. exists r. split; [reflexivity|]. rewrite weighted_is in W2.
  rewrite Forall_forall in HS. destruct (HS r (nth_error_In _ _ ER)) as [HR1 HR2].
  destruct (Z.eq_dec (ns_pid (gn_source g)) (x_proj r)) as [EP|NP]; [|rewrite (HR1 _ E0 NP) in W2; lra].
  rewrite EP in W2. pose proof (HR2 (x_proj r) E0) as XN. split; [symmetry; exact EP|].
  assert (FN : 0 <= fraction (gn_target g) (x_atom r)) by (unfold fraction, good_target in *; destruct (gn_target g); [apply HT|lra]).
  destruct (Rle_lt_or_eq_dec _ _ XN) as [XP|XZ]; [|rewrite <- XZ in W2; lra]. split; [exact XP|]. destruct (Rle_lt_or_eq_dec _ _ FN) as [|FZ]; [assumption|]. rewrite <- FZ in W2. lra.
Qed.
Print Assumptions C34_sampled.

(** At a given energy, each reaction is chosen for a share of the draws proportional to its
    cross section times the fraction of its atom. *)
Theorem C34_share ops sf mx d u fuel g' E i : let g := fold_left gstep ops new_generator in
  let sigma := fun r => fraction (gn_target g) (x_atom r) * x_xs r (ns_pid (gn_source g)) E in
  let total := sumR (map sigma (gn_rx g)) in
  Forall sound (gn_rx g) -> good_target (gn_target g) -> 0 < total -> 0 < u <= 1 ->
  sample_reaction g sf mx d u fuel = Ok (g', E, i) ->
  forall k r, nth_error (gn_rx g) k = Some r ->
  let lo := sumR (map sigma (firstn k (gn_rx g))) / total in
  (i = k <-> lo < u <= lo + sigma r / total).
Proof.
  cbv zeta. intros HS HT HP Hu. pose proof (reach_slots ops) as H. set (g := fold_left gstep ops new_generator) in *.
  rewrite <- (map_ext (weighted_xs g E)) in * by (intros r; apply weighted_is).
  unfold sample_reaction. destruct (gn_rx g) as [|r0 rx0] eqn:ER; [discriminate|]. rewrite <- ER in *. clear r0 rx0 ER.
  destruct (rejection_sample _ _ _ _ _ _ _ _) as [[E0 m]|e] eqn:RS; cbn [bind]; [|discriminate]. rewrite (E_pdf_ok g E0 H). cbn [bind]. cbv zeta.
  destruct (Nat.ltb_spec (discrete (map (weighted_xs g E0) (gn_rx g)) u) (length (gn_rx g))) as [LI|LI]; [|discriminate]. intros X. injection X as _ -> <-.
  intros k r Hr. rewrite <- (weighted_is g E r).
  rewrite <- (map_ext (weighted_xs g E) _ (weighted_is g E)).
  assert (NN : nonneg (map (weighted_xs g E) (gn_rx g))).
  { apply Forall_map. revert HS. apply Forall_impl. intros x Hx. apply weighted_nonneg; assumption. }
  assert (HW : nth_error (map (weighted_xs g E) (gn_rx g)) k = Some (weighted_xs g E r)) by (rewrite nth_error_map, Hr; reflexivity).
  pose proof (C57_share _ k _ u NN HP HW Hu) as C. cbv zeta in C. rewrite firstn_map in C. exact (proj2 (proj2 C)).
Qed.
Print Assumptions C34_share.

(** Whenever the last change of the reactions, source or target was accepted, the density of
    reacting energies has integral one (for a monoenergetic source, value one). *)
Definition changes (o : gop) : Prop := match o with OAdd (Some _) | OSource (Some _) | OTarget (Some _) => True | _ => False end.

Lemma normalize_unit g g' : slots g -> gn_hold g = false -> normalize g = (g', Ok tt) ->
  0 < gn_norm g' /\
  (ns_min (gn_source g') = ns_max (gn_source g') -> E_density g' (ns_min (gn_source g')) = 1) /\
  (ns_min (gn_source g') < ns_max (gn_source g') -> utils_integrate (E_density g') (ns_min (gn_source g')) (ns_max (gn_source g')) = 1).
Proof.
  intros H HH HN. pose proof (normalize_keeps g H) as K. cbv zeta in K. rewrite HN in K. cbn [fst] in K. destruct K as (K1 & K2 & K3 & K4 & K5 & K6).
  unfold normalize in HN. rewrite HH in HN. cbv zeta in HN. set (g1 := set_norm (set_max g (gn_default g)) 1) in *. assert (H1 : slots g1) by exact H.
  rewrite (E_pdf_ok g1 _ H1) in HN. cbv zeta in HN. change (gn_source g1) with (gn_source g) in HN. set (lo := ns_min (gn_source g)) in *. set (hi := ns_max (gn_source g)) in *.
  set (n := if Req_EM_T lo hi then _ else utils_integrate (E_density g1) lo hi) in HN.
  assert (Hn1 : lo = hi -> n = E_density g1 lo) by (intros EQ; unfold E_density, n; rewrite (E_pdf_ok g1 lo H1); cbv zeta; destruct (Req_EM_T lo hi); [reflexivity|contradiction]).
  assert (Hn2 : lo <> hi -> n = num_integrate 50 (E_density g1) lo hi) by (intros EQ; unfold n; destruct (Req_EM_T lo hi); [contradiction|reflexivity]).
  clearbody n. injection HN as Eg En. destruct (Rle_dec n 0) as [|NP]; [discriminate|].
  assert (D : forall E, E_density g' E = / n * E_density g1 E).
  { intros E. unfold E_density. rewrite (E_pdf_ok g' E K1), (E_pdf_ok g1 E H1). cbv zeta. rewrite K2, K3, K5.
    assert (M : map (weighted_xs g' E) (gn_rx g) = map (weighted_xs g1 E) (gn_rx g1)) by (apply map_ext; intros r; unfold weighted_xs; rewrite K3, K4; reflexivity).
    rewrite M. change (gn_weight g1) with (gn_weight g). change (gn_norm g1) with 1. change (gn_source g1) with (gn_source g).
    assert (N1 : gn_norm g' = n) by (rewrite <- Eg; reflexivity). rewrite N1.
    destruct (gn_weight g); [unfold Rdiv; rewrite Rinv_1; ring|]. destruct (Rle_dec _ 0); [ring|]. unfold Rdiv. rewrite Rinv_1. ring. }
  split; [rewrite <- Eg; cbn [set_norm gn_norm]; lra|]. rewrite K3. fold lo hi. split.
  - intros EQ. rewrite D, <- (Hn1 EQ). apply Rinv_l. lra.
  - intros LT. unfold utils_integrate. rewrite (C61_inside 50 _ (fun x => / n * E_density g1 x + 0 * E_density g1 x)) by (intros; try rewrite D; lra).
    destruct (C61_linear 50 (E_density g1) (E_density g1) (/ n) 0 lo hi) as [L _]. rewrite L, Rmult_0_l, Rplus_0_r.
    rewrite <- Hn2 by lra. apply Rinv_l. lra.
Qed.

Theorem C34_normalised ops o : let g0 := fold_left gstep ops new_generator in
  forall g, (exists r, o = OAdd (Some r) /\ add_reaction g0 (Some r) = (g, Ok tt)) \/
  (exists s, o = OSource (Some s) /\ set_source g0 (Some s) = (g, Ok tt) /\ gn_rx g0 <> []) \/
  (exists t, o = OTarget (Some t) /\ set_target g0 (Some t) = (g, Ok tt) /\ gn_rx g0 <> []) ->
  gstep g0 o = g /\ 0 < gn_norm g /\
  (ns_min (gn_source g) = ns_max (gn_source g) -> E_density g (ns_min (gn_source g)) = 1) /\
  (ns_min (gn_source g) < ns_max (gn_source g) -> utils_integrate (E_density g) (ns_min (gn_source g)) (ns_max (gn_source g)) = 1).
Proof.
  cbv zeta. pose proof (reach_slots ops) as H.
  assert (HH : gn_hold (fold_left gstep ops new_generator) = false).
  { assert (G : forall ops g, slots g -> gn_hold (fold_left gstep ops g) = gn_hold g).
    { clear. induction ops as [|o ops IH]; intros g H; cbn [fold_left]; [reflexivity|]. destruct (step_keeps g o H) as (A & _ & _ & _ & _ & B). rewrite (IH _ A). exact B. }
    rewrite G by reflexivity. reflexivity. }
  set (g0 := fold_left gstep ops new_generator) in *. intros g [(r & -> & X)|[(s & -> & X & NE)|(t & -> & X & NE)]]; cbn [gstep]; rewrite X; (split; [reflexivity|]).
  - unfold add_reaction in X. refine (normalize_unit _ _ _ _ X); [unfold slots in *; cbn [gn_xs gn_rx]; rewrite !app_length, H; reflexivity|exact HH].
  - unfold set_source in X. cbv zeta in X. cbn [gn_rx] in X. destruct (gn_rx g0) eqn:ER; [contradiction|]. rewrite <- ER in X. refine (normalize_unit _ _ _ _ X); [exact H|exact HH].
  - unfold set_target in X. cbv zeta in X. cbn [gn_rx] in X. destruct (gn_rx g0) eqn:ER; [contradiction|]. rewrite <- ER in X. refine (normalize_unit _ _ _ _ X); [exact H|exact HH].
Qed.
Print Assumptions C34_normalised.

Lemma step_default g o : slots g -> gn_default (gstep g o) = gn_default g.
Proof.
  intros H. assert (N : forall g, slots g -> gn_default (fst (normalize g)) = gn_default g).
  { intros g1 S1. unfold normalize. destruct (gn_hold g1); [reflexivity|]. cbv zeta. rewrite E_pdf_ok by exact S1. reflexivity. }
  destruct o as [[r|]| |[s|]|[t|]|w|E|sf mx d u fuel]; cbn [gstep]; try reflexivity.
  - unfold add_reaction. rewrite N; [reflexivity|]. unfold slots in *. cbn [gn_xs gn_rx]. rewrite !app_length, H. reflexivity.
  - unfold set_source. cbv zeta. cbn [gn_rx]. destruct (gn_rx g) eqn:ER; [reflexivity|]. rewrite <- ER. rewrite N; [reflexivity|exact H].
  - unfold set_target. cbv zeta. cbn [gn_rx]. destruct (gn_rx g) eqn:ER; [reflexivity|]. rewrite <- ER. rewrite N; [reflexivity|exact H].
  - rewrite (E_pdf_ok g E H). reflexivity.
  - unfold sample_reaction. destruct (gn_rx g) as [|r0 rx0]; [reflexivity|]. destruct (rejection_sample _ _ _ _ _ _ _ _) as [[E m]|e]; cbn [bind]; [|reflexivity].
    rewrite (E_pdf_ok g E H). cbn [bind]. cbv zeta. destruct (Nat.ltb _ _); reflexivity.
Qed.

Lemma reach_flags ops : gn_hold (fold_left gstep ops new_generator) = false /\ gn_default (fold_left gstep ops new_generator) = None.
Proof.
  assert (G : forall ops g, slots g -> gn_hold (fold_left gstep ops g) = gn_hold g /\ gn_default (fold_left gstep ops g) = gn_default g).
  { clear. induction ops as [|o ops IH]; intros g H; cbn [fold_left]; [auto|]. pose proof (step_default g o H) as D. destruct (step_keeps g o H) as (A & _ & _ & _ & _ & B). destruct (IH _ A) as [I1 I2]. split; congruence. }
  destruct (G ops new_generator eq_refl) as [I1 I2]. rewrite I1, I2. auto.
Qed.

(** Clearing the reactions leaves no trace of them: the generator then goes on exactly as a
    new one that was given the same source, target and flag, also if the earlier reactions
    could not be normalised. *)
Theorem C34_forgets ops r more : let g := fold_left gstep ops new_generator in
  let afresh := [OSource (Some (gn_source g)); OTarget (gn_target g); OWeight (gn_weight g)] in
  fold_left gstep (ops ++ OClear :: OAdd (Some r) :: more) new_generator = fold_left gstep (afresh ++ OAdd (Some r) :: more) new_generator /\
  flux_averaged (gstep g OClear) = flux_averaged (fold_left gstep afresh new_generator).
Proof.
  cbv zeta. destruct (reach_flags ops) as [F1 F2]. rewrite !fold_left_app. set (g := fold_left gstep ops new_generator) in *. cbn [fold_left gstep].
  unfold clear_reactions, set_source. cbn [new_generator gn_rx fst gn_xs gn_target gn_weight gn_norm gn_hold gn_default gn_max gn_source]. rewrite F1, F2. clearbody g. destruct (gn_target g) as [t|]; split; reflexivity.
Qed.
Print Assumptions C34_forgets.

(** Without reactions no event can be made and every cross section is zero, but the flux
    average is not: it is the inverse of the flux. *)
Theorem C35_empty ops : let g := fold_left gstep ops new_generator in gn_rx g = [] ->
  (forall sf mx d u fuel, sample_reaction g sf mx d u fuel = Er MarleyErr) /\ (forall E, E_density g E = 0) /\ (forall pdg E, total_xs_target g pdg E = 0) /\ (forall pdg E atom u, pick_reaction g pdg E atom u = Er MarleyErr).
Proof.
  cbv zeta. pose proof (reach_slots ops) as H. set (g := fold_left gstep ops new_generator) in *. intros HR. split; [intros; unfold sample_reaction; rewrite HR; reflexivity|].
  split; [intros E; unfold E_density; rewrite (E_pdf_ok g E H); cbv zeta; rewrite HR; cbn [map sumR]; destruct (gn_weight g); [unfold Rdiv; ring|destruct (Rle_dec 0 0); [reflexivity|lra]]|].
  split; [intros; unfold total_xs_target; rewrite HR; reflexivity|]. intros. unfold pick_reaction, total_xs_atom. rewrite HR. reflexivity.
Qed.
Print Assumptions C35_empty.
Theorem C35_empty_refuted : ~ (forall ops, let g := fold_left gstep ops new_generator in gn_rx g = [] -> flux_averaged g = 0).
Proof.
  intros H. specialize (H [] eq_refl). cbn [fold_left] in H. unfold flux_averaged in H. cbn [new_generator gn_weight gn_source default_source ns_min ns_max ns_pdf negb gn_norm] in H.
  destruct (Req_EM_T 10 10) as [_|C]; [|contradiction]. lra.
Qed.
Print Assumptions C35_empty_refuted.

(** ** C35 *)

Definition matches (pdg atom : Z) (r : rxn) : bool := (Z.eqb (x_proj r) pdg && Z.eqb (x_atom r) atom)%bool.

Lemma loop_spec pdg E atom rx j : let '(s, is, ws) := total_xs_loop rx pdg E atom j in
  s = sumR ws /\ length is = length ws /\ Forall (fun w => 0 < w) ws /\
  (forall k i w, nth_error is k = Some i -> nth_error ws k = Some w ->
     exists r, (j <= i)%nat /\ nth_error rx (i - j) = Some r /\ matches pdg atom r = true /\ w = x_xs r pdg E) /\
  (forall i r, nth_error rx i = Some r -> matches pdg atom r = true -> 0 < x_xs r pdg E -> In (j + i)%nat is) /\
  Sorted.StronglySorted lt is /\
  (Forall (fun r => 0 <= x_xs r pdg E) rx -> s = sumR (map (fun r => x_xs r pdg E) (filter (matches pdg atom) rx))).
Proof.
  revert j. induction rx as [|r rx IH]; intros j; cbn [total_xs_loop].
  - split; [reflexivity|]. split; [reflexivity|]. split; [constructor|]. split; [intros k i w H; destruct k; discriminate|]. split; [intros i r H; destruct i; discriminate|]. split; [constructor|]. reflexivity.
  - specialize (IH (S j)). destruct (total_xs_loop rx pdg E atom (S j)) as [[s is] ws]. destruct IH as (I1 & I2 & I3 & I4 & I5 & I6 & I7).
    assert (SK : forall k i w, nth_error is k = Some i -> nth_error ws k = Some w -> exists r', (j <= i)%nat /\ nth_error (r :: rx) (i - j) = Some r' /\ matches pdg atom r' = true /\ w = x_xs r' pdg E).
    { intros k i w A B. destruct (I4 k i w A B) as (r' & L & N & M & V). exists r'. split; [lia|]. replace (i - j)%nat with (S (i - S j)) by lia. auto. }
    assert (IL : Forall (fun i => (j < i)%nat) is).
    { apply Forall_forall. intros i Hi. apply In_nth_error in Hi. destruct Hi as [k Hk]. destruct (nth_error ws k) as [w|] eqn:Ew.
      - destruct (I4 k i w Hk Ew) as (_ & L & _). lia.
      - apply nth_error_None in Ew. assert (k < length is)%nat by (apply nth_error_Some; congruence). lia. }
    assert (MM : matches pdg atom r = negb (negb (Z.eqb atom (x_atom r))) && negb (negb (Z.eqb pdg (x_proj r)))).
    { unfold matches. rewrite !negb_involutive, (Z.eqb_sym (x_proj r)), (Z.eqb_sym (x_atom r)). apply andb_comm. }
    assert (SKIP : matches pdg atom r = false \/ ~ 0 < x_xs r pdg E ->
       s = sumR ws /\ length is = length ws /\ Forall (fun w => 0 < w) ws /\
       (forall k i w, nth_error is k = Some i -> nth_error ws k = Some w -> exists r', (j <= i)%nat /\ nth_error (r :: rx) (i - j) = Some r' /\ matches pdg atom r' = true /\ w = x_xs r' pdg E) /\
       (forall i r', nth_error (r :: rx) i = Some r' -> matches pdg atom r' = true -> 0 < x_xs r' pdg E -> In (j + i)%nat is) /\
       StronglySorted lt is /\
       (Forall (fun r => 0 <= x_xs r pdg E) (r :: rx) -> s = sumR (map (fun r => x_xs r pdg E) (filter (matches pdg atom) (r :: rx))))).
    { intros HS. split; [exact I1|]. split; [exact I2|]. split; [exact I3|]. split; [exact SK|]. split; [|split; [exact I6|]].
      - intros [|i] r' N M P; [cbn in N; injection N as <-; destruct HS; [congruence|contradiction]|]. replace (j + S i)%nat with (S j + i)%nat by lia. exact (I5 i r' N M P).
      - intros F. cbn [filter]. pose proof (Forall_inv F) as F0. rewrite (I7 (Forall_inv_tail F)). destruct (matches pdg atom r); [|reflexivity]. cbn [map sumR].
        destruct HS as [HS|HS]; [discriminate|]. cbv beta in F0. lra. }
    destruct (negb (Z.eqb atom (x_atom r))) eqn:E1; [apply SKIP; left; rewrite MM; reflexivity|].
    destruct (negb (Z.eqb pdg (x_proj r))) eqn:E2; [apply SKIP; left; rewrite MM; reflexivity|].
    cbv zeta. destruct (Rlt_dec 0 (x_xs r pdg E)) as [P|P]; [|apply SKIP; right; exact P].
    assert (M1 : matches pdg atom r = true) by (rewrite MM; reflexivity).
    split; [cbn [sumR]; rewrite I1; reflexivity|]. split; [cbn [length]; rewrite I2; reflexivity|]. split; [constructor; assumption|]. split; [|split; [|split]].
    + intros [|k] i w A B; [cbn in A, B; injection A as <-; injection B as <-; exists r; rewrite Nat.sub_diag; auto|]. exact (SK k i w A B).
    + intros [|i] r' N M Q; [left; lia|]. right. replace (j + S i)%nat with (S j + i)%nat by lia. exact (I5 i r' N M Q).
    + constructor; [exact I6|exact IL].
    + intros F. cbn [filter]. rewrite M1. cbn [map sumR]. rewrite <- (I7 (Forall_inv_tail F)). reflexivity.
Qed.

(** The total cross section for a kind of atom is the sum over the loaded reactions with
    that projectile and atom. The two lists agree element by element: each index points to
    a matching reaction whose cross section is the weight beside it, every matching reaction
    with a positive cross section is there, once, in order. *)
Theorem C35_total g pdg E atom : Forall sound (gn_rx g) -> let '(s, is, ws) := total_xs_atom g pdg E atom in
  s = sumR (map (fun r => x_xs r pdg E) (filter (matches pdg atom) (gn_rx g))) /\ s = sumR ws /\
  length is = length ws /\ StronglySorted lt is /\
  (forall k i w, nth_error is k = Some i -> nth_error ws k = Some w ->
     exists r, nth_error (gn_rx g) i = Some r /\ x_proj r = pdg /\ x_atom r = atom /\ w = x_xs r pdg E /\ 0 < w) /\
  (forall i r, nth_error (gn_rx g) i = Some r -> x_proj r = pdg -> x_atom r = atom -> 0 < x_xs r pdg E -> In i is).
Proof.
  intros HS. pose proof (loop_spec pdg E atom (gn_rx g) 0) as L. unfold total_xs_atom. destruct (total_xs_loop (gn_rx g) pdg E atom 0) as [[s is] ws].
  destruct L as (I1 & I2 & I3 & I4 & I5 & I6 & I7). split; [apply I7; revert HS; apply Forall_impl; intros r [_ P]; apply P|]. split; [exact I1|]. split; [exact I2|]. split; [exact I6|]. split.
  - intros k i w A B. destruct (I4 k i w A B) as (r & _ & N & M & V). rewrite Nat.sub_0_r in N. unfold matches in M. apply andb_true_iff in M. destruct M as [M1 M2]. apply Z.eqb_eq in M1, M2.
    exists r. rewrite Forall_forall in I3. pose proof (I3 w (nth_error_In _ _ B)). auto 10.
  - intros i r N P1 P2 P. apply (I5 i r N); [|exact P]. unfold matches. rewrite P1, P2, !Z.eqb_refl. reflexivity.
Qed.
Print Assumptions C35_total.

(** Choosing a reaction for given initial particles fails exactly when no loaded reaction
    has that projectile and atom and a positive cross section; otherwise the reaction chosen
    does, for every draw. *)
Theorem C35_pick g pdg E atom u : 0 <= u <= 1 ->
  match pick_reaction g pdg E atom u with
  | Ok i => exists r, nth_error (gn_rx g) i = Some r /\ x_proj r = pdg /\ x_atom r = atom /\ 0 < x_xs r pdg E
  | Er e => e = MarleyErr /\ forall r, In r (gn_rx g) -> x_proj r = pdg -> x_atom r = atom -> ~ 0 < x_xs r pdg E
  end.
Proof.
  intros Hu. unfold pick_reaction, total_xs_atom. pose proof (loop_spec pdg E atom (gn_rx g) 0) as L.
  destruct (total_xs_loop (gn_rx g) pdg E atom 0) as [[s is] ws]. destruct L as (I1 & I2 & I3 & I4 & I5 & _ & _).
  destruct ws as [|w0 ws0] eqn:EW.
  - split; [reflexivity|]. intros r Hr P1 P2 P. apply In_nth_error in Hr. destruct Hr as [i Hi].
    assert (X : In (0 + i)%nat is) by (apply (I5 i r Hi); [unfold matches; rewrite P1, P2, !Z.eqb_refl; reflexivity|exact P]).
    destruct is; [exact X|discriminate I2].
  - rewrite <- EW in *. assert (NN : nonneg ws) by (revert I3; apply Forall_impl; intros; lra).
    assert (SP : 0 < sumR ws). { rewrite EW in *. cbn [sumR]. pose proof (Forall_inv I3) as P0. cbv beta in P0. pose proof (sumR_nonneg ws0 (Forall_inv_tail NN)). lra. }
    destruct (Rle_dec s 0) as [SN|_]; [lra|].
    assert (LT : (discrete ws u < length ws)%nat).
    { destruct (Rle_lt_or_eq_dec _ _ (proj1 Hu)) as [UP|UZ]; [exact (proj1 (discrete_spec ws u NN SP ltac:(lra)))|]. rewrite <- UZ, (discrete_zero ws NN SP), EW. cbn [length]. lia. }
    destruct (nth_error is (discrete ws u)) as [i|] eqn:EI; [|apply nth_error_None in EI; lia].
    destruct (nth_error ws (discrete ws u)) as [w|] eqn:Ew; [|apply nth_error_None in Ew; lia].
    destruct (I4 _ i w EI Ew) as (r & _ & N & M & V). rewrite Nat.sub_0_r in N. unfold matches in M. apply andb_true_iff in M. destruct M as [M1 M2]. apply Z.eqb_eq in M1, M2.
    assert (LI : (i < length (gn_rx g))%nat) by (apply nth_error_Some; congruence). destruct (Nat.ltb_spec i (length (gn_rx g))); [|lia].
    exists r. rewrite Forall_forall in I3. pose proof (I3 w (nth_error_In _ _ Ew)). subst w. auto.
Qed.
Print Assumptions C35_pick.

Lemma fold_sum f (l : list rxn) a : fold_left (fun acc r => acc + f r) l a = a + sumR (map f l).
Proof. revert a. induction l as [|r l IH]; intros a; cbn [fold_left map sumR]; [ring|]. rewrite IH. ring. Qed.

Lemma sum_by_atom (t : list (Z * R)) n c : NoDup (map fst t) -> sumR (map (fun e => snd e * (if Z.eqb n (fst e) then c else 0)) t) = atom_fraction t n * c.
Proof.
  unfold atom_fraction. induction t as [|[k f] t IH]; intros ND; cbn [map sumR fst snd assoc]; [ring|]. inversion ND as [|x y NI ND']; subst. cbn [map fst] in *. rewrite (IH ND').
  destruct (Z.eqb_spec n k) as [->|NE]; [|ring]. destruct (assoc k t) eqn:EA; [|ring]. exfalso. apply NI. 
  assert (X : forall (t : list (Z * R)) f', assoc k t = Some f' -> In k (map fst t)).
  { clear. induction t as [|[a c] t IH]; intros f' H; cbn [assoc map fst] in *; [discriminate|]. destruct (Z.eqb_spec k a); [left; symmetry; assumption|right; exact (IH f' H)]. }
  exact (X _ _ EA).
Qed.

Lemma sumR_map_plus {A} (f h : A -> R) l : sumR (map (fun x => f x + h x) l) = sumR (map f l) + sumR (map h l).
Proof. induction l as [|a l IH]; cbn [map sumR]; lra. Qed.

(** The cross section averaged over the target weights the total cross section for each of
    its atoms by the atom's fraction. Without a target it is the sum over all reactions. *)
Theorem C35_average g pdg E : Forall sound (gn_rx g) ->
  match gn_target g with
  | Some t => NoDup (map fst t) -> total_xs_target g pdg E = sumR (map (fun e => snd e * fst (fst (total_xs_atom g pdg E (fst e)))) t)
  | None => total_xs_target g pdg E = sumR (map (fun r => x_xs r pdg E) (gn_rx g))
  end.
Proof.
  intros HS. unfold total_xs_target. destruct (gn_target g) as [t|] eqn:ET; rewrite fold_sum, Rplus_0_l; [|reflexivity]. intros ND.
  rewrite (map_ext_in (fun e => snd e * fst (fst (total_xs_atom g pdg E (fst e)))) (fun e => snd e * sumR (map (fun r => x_xs r pdg E) (filter (matches pdg (fst e)) (gn_rx g))))).
  2:{ intros e _. pose proof (C35_total g pdg E (fst e) HS) as C. destruct (total_xs_atom g pdg E (fst e)) as [[s is] ws]. cbn [fst]. destruct C as [C _]. rewrite C. reflexivity. }
  clear ET. induction (gn_rx g) as [|r rx IH]; cbn [map sumR filter].
  - symmetry. clear. induction t as [|e t IH]; cbn [map sumR]; [reflexivity|]. rewrite IH. ring.
  - rewrite (IH (Forall_inv_tail HS)). destruct (Forall_inv HS) as [R1 _].
    rewrite (map_ext_in (fun e => snd e * sumR (map (fun r0 => x_xs r0 pdg E) (if matches pdg (fst e) r then r :: filter (matches pdg (fst e)) rx else filter (matches pdg (fst e)) rx)))
       (fun e => snd e * (if Z.eqb (x_atom r) (fst e) then x_xs r pdg E else 0) + snd e * sumR (map (fun r0 => x_xs r0 pdg E) (filter (matches pdg (fst e)) rx)))).
    + rewrite (sumR_map_plus (fun e => snd e * (if Z.eqb (x_atom r) (fst e) then x_xs r pdg E else 0)) (fun e => snd e * sumR (map (fun r0 => x_xs r0 pdg E) (filter (matches pdg (fst e)) rx))) t).
      rewrite (sum_by_atom t (x_atom r) (x_xs r pdg E) ND). ring.
    + intros e _. unfold matches at 1. destruct (Z.eqb_spec (x_proj r) pdg) as [EP|NP]; cbn [andb].
      * destruct (Z.eqb (x_atom r) (fst e)); cbn [map sumR]; ring.
      * rewrite (R1 pdg E) by congruence. destruct (Z.eqb (x_atom r) (fst e)); ring.
Qed.
Print Assumptions C35_average.

(** The flux-averaged total cross section after an accepted change: the integral of flux
    times target-averaged cross section over the integral of the flux; for one energy, the
    cross section at it. *)
Theorem C35_flux_average g0 g : slots g0 -> gn_hold g0 = false -> gn_weight g0 = true -> normalize g0 = (g, Ok tt) ->
  let s := gn_source g in
  (ns_min s < ns_max s ->
     flux_averaged g = utils_integrate (fun E => total_xs_target g (ns_pid s) E * ns_pdf s E) (ns_min s) (ns_max s) / utils_integrate (ns_pdf s) (ns_min s) (ns_max s)) /\
  (ns_min s = ns_max s -> ns_pdf s (ns_min s) <> 0 -> flux_averaged g = total_xs_target g (ns_pid s) (ns_min s)).
Proof.
  intros H HH HW HN. pose proof (normalize_keeps g0 H) as K. cbv zeta in K. rewrite HN in K. cbn [fst] in K. destruct K as (K1 & K2 & K3 & K4 & K5 & K6). cbv zeta.
  assert (TX : forall E, total_xs_target g (ns_pid (gn_source g)) E = sumR (map (weighted_xs g E) (gn_rx g))).
  { intros E. unfold total_xs_target. rewrite fold_sum, Rplus_0_l. reflexivity. }
  unfold normalize in HN. rewrite HH in HN. cbv zeta in HN. set (g1 := set_norm (set_max g0 (gn_default g0)) 1) in *. assert (H1 : slots g1) by exact H.
  rewrite (E_pdf_ok g1 _ H1) in HN. cbv zeta in HN. change (gn_source g1) with (gn_source g0) in HN. change (gn_weight g1) with (gn_weight g0) in HN. rewrite HW in HN.
  rewrite K3. set (s := gn_source g0) in *. set (lo := ns_min s) in *. set (hi := ns_max s) in *.
  assert (W1 : forall E, sumR (map (weighted_xs g1 E) (gn_rx g1)) = sumR (map (weighted_xs g E) (gn_rx g))).
  { intros E. change (gn_rx g1) with (gn_rx g0). rewrite K2. f_equal. apply map_ext. intros r. unfold weighted_xs. rewrite K3, K4. reflexivity. }
  unfold flux_averaged. rewrite K5, HW, K3. fold s. cbn [negb]. cbv zeta. fold lo hi.
  apply (f_equal (fun p => gn_norm (fst p))) in HN. cbn [fst set_norm gn_norm] in HN. rewrite K3 in TX. split.
  - intros LT. destruct (Req_EM_T lo hi) as [EQ|NE]; [lra|]. f_equal. rewrite <- HN. unfold utils_integrate. apply C61_inside; [lra|]. intros x _. rewrite TX.
    unfold E_density. rewrite (E_pdf_ok g1 x H1). cbv zeta. change (gn_weight g1) with (gn_weight g0). rewrite HW. change (gn_norm g1) with 1. rewrite W1. change (gn_source g1) with s. field.
  - intros EQ NZ. destruct (Req_EM_T lo hi) as [_|NE]; [|contradiction]. rewrite <- HN, TX, <- W1. change (gn_norm g1) with 1. field. exact NZ.
Qed.
Print Assumptions C35_flux_average.

(** Changing the flag does not renormalise, so the value is not what it says afterwards:
    here the cross section is 2 and the reported average 1. *)
Definition demo_rxn : rxn := mkrxn 12 1000180400 (fun pdg E => if Z.eqb pdg 12 then 2 else 0).

Lemma demo_sound : sound demo_rxn.
Proof. split; intros pdg E; cbn; [intros N; destruct (Z.eqb_spec pdg 12); [contradiction|reflexivity]|destruct (Z.eqb pdg 12); lra]. Qed.

Theorem C35_flag_refuted : ~ (forall ops, let g := fold_left gstep ops new_generator in Forall sound (gn_rx g) -> gn_rx g <> [] -> gn_weight g = true ->
  ns_min (gn_source g) = ns_max (gn_source g) -> flux_averaged g = total_xs_target g (ns_pid (gn_source g)) (ns_min (gn_source g))).
Proof.
  intros H. specialize (H [OWeight false; OAdd (Some demo_rxn); OWeight true]). cbv zeta in H.
  set (g := fold_left gstep _ _) in H.
  assert (R : gn_rx g = [demo_rxn] /\ gn_source g = default_source /\ gn_weight g = true /\ gn_target g = None).
  { destruct (C34_bookkeeping [OWeight false; OAdd (Some demo_rxn); OWeight true]) as (_ & A & B & C & D). fold g in A, B, C, D. auto. }
  destruct R as (R1 & R2 & R3 & R4). rewrite R1, R2 in H. specialize (H ltac:(constructor; [apply demo_sound|constructor]) ltac:(discriminate) R3 eq_refl).
  assert (T : total_xs_target g (ns_pid default_source) (ns_min default_source) = 2). { unfold total_xs_target. rewrite R1, R4. cbn. lra. }
  rewrite T in H. unfold flux_averaged in H. rewrite R3, R2 in H. cbn [negb ns_min ns_max ns_pdf default_source] in H.
  destruct (Req_EM_T 10 10); [|lra]. 
  assert (N : gn_norm g = 1).
  { unfold g. cbn [fold_left gstep set_weight_flux gn_norm]. unfold add_reaction. set (g1 := mkgstate _ _ _ _ _ _ _ _ _). unfold normalize. change (gn_hold g1) with false. cbv iota zeta.
    change (ns_min (gn_source (set_norm (set_max g1 (gn_default g1)) 1))) with 10. change (ns_max (gn_source (set_norm (set_max g1 (gn_default g1)) 1))) with 10.
    rewrite (E_pdf_ok _ _ (eq_refl : slots (set_norm (set_max g1 (gn_default g1)) 1))). cbv zeta. destruct (Req_EM_T 10 10); [|lra]. cbn [fst set_norm gn_norm].
    change (gn_weight (set_norm (set_max g1 (gn_default g1)) 1)) with false. cbv iota. change (gn_rx (set_norm (set_max g1 (gn_default g1)) 1)) with [demo_rxn]. cbn [map sumR].
    change (weighted_xs (set_norm (set_max g1 (gn_default g1)) 1) 10 demo_rxn) with 2. destruct (Rle_dec (2 + 0) 0); [lra|]. cbn. destruct (Req_EM_T 10 10); lra. }
  rewrite N in H. lra.
Qed.
Print Assumptions C35_flag_refuted.

(** A case for the hypotheses of C34: one reaction added to a new generator. *)
Example C34_case : let g := fold_left gstep [OAdd (Some demo_rxn)] new_generator in
  Forall sound (gn_rx g) /\ good_target (gn_target g) /\ 0 < gn_norm g /\ exists g' E, sample_reaction g 1 1 (fun _ => (1 / 2, 1 / 2)) (1 / 2) 1 = Ok (g', E, 0%nat).
Proof.
  cbv zeta. destruct (C34_bookkeeping [OAdd (Some demo_rxn)]) as (S1 & A & B & C & D).
  assert (N : gn_norm (fold_left gstep [OAdd (Some demo_rxn)] new_generator) = 2).
  { cbn [fold_left gstep]. unfold add_reaction. set (g1 := mkgstate _ _ _ _ _ _ _ _ _). unfold normalize. change (gn_hold g1) with false. cbv iota zeta.
    change (ns_min (gn_source (set_norm (set_max g1 (gn_default g1)) 1))) with 10. change (ns_max (gn_source (set_norm (set_max g1 (gn_default g1)) 1))) with 10.
    rewrite (E_pdf_ok _ _ (eq_refl : slots (set_norm (set_max g1 (gn_default g1)) 1))). cbv zeta. destruct (Req_EM_T 10 10); [|lra]. cbn [fst set_norm gn_norm].
    change (gn_weight (set_norm (set_max g1 (gn_default g1)) 1)) with true. cbv iota. change (gn_rx (set_norm (set_max g1 (gn_default g1)) 1)) with [demo_rxn]. cbn [map sumR].
    change (weighted_xs (set_norm (set_max g1 (gn_default g1)) 1) 10 demo_rxn) with 2. cbn. destruct (Req_EM_T 10 10); [field|contradiction]. }
  set (g := fold_left gstep [OAdd (Some demo_rxn)] new_generator) in *. cbn [fold_left want_rx want_source want_target want_weight app] in A, B, C, D.
  rewrite A, C, N. split; [constructor; [apply demo_sound|constructor]|]. split; [exact I|]. split; [lra|].
  unfold sample_reaction, rejection_sample. rewrite A. cbn [rejection fst snd]. cbv zeta. rewrite B. cbn [ns_min ns_max default_source].
  assert (U : uniform 10 10 (1 / 2) = 10) by (unfold uniform; lra). rewrite U.
  assert (V : E_density g 10 = 1).
  { unfold E_density. rewrite (E_pdf_ok g 10 S1). cbv zeta. rewrite D, A, B, N. cbn [map sumR]. unfold weighted_xs. rewrite C, B. cbn. destruct (Req_EM_T 10 10); [field|contradiction]. }
  rewrite V. destruct (gn_max g) as [m|] eqn:EM.
  - exfalso. clear -EM. unfold g in EM. cbn [fold_left gstep] in EM. unfold add_reaction, normalize in EM. cbn [gn_hold new_generator] in EM. cbv zeta in EM.
    destruct (E_pdf _ _) as [[xs v]|e]; cbn in EM; discriminate.
  - destruct (Rlt_dec 1 (uniform 0 (1 * 1) (1 / 2))) as [L|L]; [unfold uniform in L; lra|]. cbn [bind]. rewrite (E_pdf_ok g 10 S1). cbn [bind]. rewrite A. cbv zeta. cbn [map].
    change (discrete [weighted_xs g 10 demo_rxn] (1 / 2)) with 0%nat. cbn [length Nat.ltb Nat.leb]. eexists _, _. reflexivity.
Qed.
