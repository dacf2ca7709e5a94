(** Property C80: neutrino sources from ROOT histograms and graphs. *)
From Coq Require Import List Ascii String ZArith Reals Bool Lia Lra.
From Verif Require Import Base Dbl Json JsonProofs XReal Sample Grid GridThms Source SourceThms Rot Gen Run Config ConfigSpec ConfigProofs ConfigThms ConfigFailThms RootSource.
From Verif Require ConfigCases.
Import ListNotations.
Open Scope list_scope.
Open Scope R_scope.

(** ** Lemmas *)

Lemma th1_ok : forall es ps over ds', th1_densities es (ps ++ [over]) = Ok ds' -> List.length es = S (List.length ps) -> exists ds, ds' = ds ++ [over] /\ densities es ps ds.
Proof.
  induction es as [|e [|e' es] IH]; intros ps over ds' H L; [discriminate| |].
  - destruct ps; [|discriminate]. cbn [app th1_densities] in H. injection H as <-. exists []. split; [reflexivity|exact Logic.I].
  - destruct ps as [|p ps]; [discriminate|]. cbn [app] in H. cbn [th1_densities] in H. destruct (Rle_dec (e' - e) 0) as [|N]; [discriminate|].
    bind_in H. injection H as <-.
    destruct (IH ps over a E) as (ds & -> & D); [cbn [List.length] in *; lia|]. exists (p / (e' - e) :: ds). split; [reflexivity|]. cbn [densities]. split; [lra|]. split; [reflexivity|exact D].
Qed.
Lemma th1_complete : forall es ps over ds, densities es ps ds -> th1_densities es (ps ++ [over]) = Ok (ds ++ [over]).
Proof.
  induction es as [|e [|e' es] IH]; intros ps over ds D; [destruct ps, ds; destruct D| |].
  - destruct ps; [|destruct D]. destruct ds; [|destruct D]. reflexivity.
  - destruct ps as [|p ps]; [destruct D|]. destruct ds as [|d ds]; [destruct D|]. cbn [densities] in D. destruct D as (L & -> & D).
    change (th1_densities (e :: e' :: es) ((p :: ps) ++ [over])) with (if Rle_dec (e' - e) 0 then Er MarleyErr else do ds <- th1_densities (e' :: es) (ps ++ [over]); Ok (p / (e' - e) :: ds)).
    rewrite (IH ps over ds D). destruct (Rle_dec (e' - e) 0); [lra|]. reflexivity.
Qed.
Lemma only_th1 es : forall ps, only (fun e => e = MarleyErr) (th1_densities es ps).
Proof.
  induction es as [|e [|e' r] IH]; intros [|w ws]; cbn [th1_densities]; try solve [op]. op; [op|]. op; [exact (IH ws)|op].
Qed.

Lemma edges_length (bins : list (R * R)) (top : R) : List.length (map fst bins ++ [top]) = S (List.length (map snd bins)).
Proof. rewrite app_length, !map_length. cbn [List.length]. lia. Qed.

(** The histogram as the constructor of the grid source sees it. *)
Lemma th1_form pdg bins top over s : th1_source pdg (Some (TH1 bins top over)) = Ok s <->
  exists ds, densities (map fst bins ++ [top]) (map snd bins) ds /\ make_grid_source_xy pdg (map fst bins ++ [top]) (ds ++ [0]) IConstant = Ok s.
Proof.
  cbn [th1_source]. split.
  - destruct (th1_densities _ _) as [ds'|] eqn:E; [|discriminate]. cbn [bind]. intros H. destruct (th1_ok _ _ _ _ E (edges_length bins top)) as (ds & -> & D).
    rewrite removelast_last in H. exists ds. split; assumption.
  - intros (ds & D & H). rewrite (th1_complete _ _ over _ D). cbn [bind]. rewrite removelast_last. exact H.
Qed.
Lemma only_th1_source pdg o : only (fun e => e = MarleyErr) (th1_source pdg o).
Proof. destruct o as [[bins top over|pts|]|]; cbn [th1_source]; try solve [op]. op; [apply only_th1|apply only_grid_xy]. Qed.
Lemma only_tgraph_source pdg o : only (fun e => e = MarleyErr) (tgraph_source pdg o).
Proof. destruct o as [[bins top over|pts|]|]; cbn [tgraph_source]; try solve [op]. apply only_grid_xy. Qed.

(** Ascending bins: each left edge lies below the next one, the last below the top. *)
Definition ascending (es : list R) : Prop := forall i x y, nth_error es i = Some x -> nth_error es (S i) = Some y -> x < y.

Lemma densities_exist : forall es ps, ascending es -> List.length es = S (List.length ps) -> exists ds, densities es ps ds.
Proof.
  induction es as [|e [|e' es] IH]; intros ps A L; [discriminate| |].
  - destruct ps; [|discriminate]. exists []. exact Logic.I.
  - destruct ps as [|p ps]; [discriminate|]. destruct (IH ps) as [ds D]; [intros i x y H1 H2; exact (A (S i) x y H1 H2)|cbn [List.length] in *; lia|].
    exists (p / (e' - e) :: ds). cbn [densities]. split; [exact (A 0%nat e e' eq_refl eq_refl)|]. split; [reflexivity|exact D].
Qed.
Lemma densities_ascending es ps ds : densities es ps ds -> ascending es.
Proof. intros D i x y H1 H2. exact (densities_sorted _ _ _ D i (S i) x y (Nat.lt_succ_diag_r i) H1 H2). Qed.

Lemma densities_lengths es ps ds : densities es ps ds -> List.length es = S (List.length ps) /\ List.length ds = List.length ps.
Proof. intros D. destruct (bins_complete _ _ _ D) as (_ & H). exact H. Qed.

Lemma signs : forall es ps ds, densities es ps ds -> (Forall (fun d => 0 <= d) ds <-> Forall (fun w => 0 <= w) ps) /\
  (Forall (fun w => 0 <= w) ps -> (0 < sumR ds <-> Exists (fun w => 0 < w) ps)).
Proof.
  induction es as [|e [|e' es] IH]; intros ps ds D; [destruct ps, ds; destruct D| |].
  - destruct ps; [|destruct D]. destruct ds; [|destruct D]. split; [split; constructor|]. intros _. split; [cbn; lra|]. intros H. inversion H.
  - destruct ps as [|p ps]; [destruct D|]. destruct ds as [|d ds]; [destruct D|]. cbn [densities] in D. destruct D as (L & Hd & D). destruct (IH ps ds D) as [S1 S2].
    assert (P : p = d * (e' - e)) by (rewrite Hd; field; lra).
    assert (A : 0 <= d <-> 0 <= p) by (split; intros; nra). assert (B : 0 < d <-> 0 < p) by (split; intros; nra).
    split.
    + split; intros F; constructor; try (apply A; exact (Forall_inv F)); apply S1; exact (Forall_inv_tail F).
    + intros F. pose proof (proj2 A (Forall_inv F)) as Hd0. apply Forall_inv_tail in F. specialize (S2 F). cbn [sumR].
      assert (N : 0 <= sumR ds). { apply S1 in F. clear - F. induction F; cbn [sumR]; lra. }
      split.
      * intros H. destruct (Rlt_dec 0 d) as [X|X]; [left; apply B; exact X|]. right. apply S2. lra.
      * intros H. inversion H as [? ? X|? ? X]; subst; [apply B in X; lra|]. apply S2 in X. lra.
Qed.

Lemma sumR_app l m : sumR (l ++ m) = sumR l + sumR m.
Proof. induction l as [|x l IH]; cbn [app sumR]; [ring|]. rewrite IH. ring. Qed.
Lemma map_snd_combine {A B} : forall (l : list A) (m : list B), List.length l = List.length m -> map snd (combine l m) = m.
Proof. induction l as [|x l IH]; intros [|y m] H; try discriminate; [reflexivity|]. cbn [combine map snd]. f_equal. apply IH. cbn [List.length] in H. lia. Qed.
Lemma forall_combine (P Q : R -> Prop) : forall l m, List.length l = List.length m -> (Forall (fun p => P (fst p) /\ Q (snd p)) (combine l m) <-> Forall P l /\ Forall Q m).
Proof.
  induction l as [|x l IH]; intros [|y m] H; try discriminate; [split; [split; constructor|constructor]|].
  cbn [combine]. specialize (IH m). cbn [List.length] in H. assert (L : List.length l = List.length m) by lia. specialize (IH L). split.
  - intros F. pose proof (Forall_inv F) as [F1 F2]. cbn [fst snd] in *. apply Forall_inv_tail in F. apply IH in F. split; constructor; tauto.
  - intros [F1 F2]. constructor; [split; [exact (Forall_inv F1)|exact (Forall_inv F2)]|]. apply IH. split; [exact (Forall_inv_tail F1)|exact (Forall_inv_tail F2)].
Qed.

Lemma combine_last {A B} (x : A) (y : B) : forall l m, List.length l = List.length m -> combine (l ++ [x]) (m ++ [y]) = combine l m ++ [(x, y)].
Proof. induction l as [|a l IH]; intros [|c m] H; try discriminate; [reflexivity|]. cbn [app combine]. f_equal. apply IH. cbn [List.length] in H. lia. Qed.

Lemma tiny_small : tiny < 1.
Proof.
  unfold tiny. apply pow_lt_1_compat; [lra|]. apply Nat.lt_0_succ.
Qed.

(** ** C80: theorems *)

(** Which histograms are accepted: those with one bin or more, ascending edges that are not
    negative, and contents that are not negative and not all zero, for a neutrino. The
    content of the overflow bin does not matter. Everything else is refused with a MARLEY
    error. *)
Theorem C80_histograms pdg bins top over :
  ((exists s, th1_source pdg (Some (TH1 bins top over)) = Ok s) <->
     neutrino pdg /\ bins <> [] /\ ascending (map fst bins ++ [top]) /\ Forall (fun x => 0 <= x) (map fst bins ++ [top]) /\
     Forall (fun w => 0 <= w) (map snd bins) /\ Exists (fun w => 0 < w) (map snd bins)) /\
  (forall s, th1_source pdg (Some (TH1 bins top over)) = Ok s -> source_pid s = pdg) /\
  (forall e, th1_source pdg (Some (TH1 bins top over)) = Er e -> e = MarleyErr).
Proof.
  set (es := map fst bins ++ [top]). set (ps := map snd bins).
  assert (LE : List.length es = S (List.length ps)) by (unfold es, ps; apply edges_length).
  assert (K : forall ds s, densities es ps ds -> (make_grid_source_xy pdg es (ds ++ [0]) IConstant = Ok s <->
    s = GridSource pdg (mkgrid IConstant EZero (map lift_zero (combine es (ds ++ [0])))) /\ neutrino pdg /\ (1 <= List.length ps)%nat /\
    Forall (fun x => 0 <= x) es /\ Forall (fun d => 0 <= d) ds /\ 0 < sumR ds)).
  { intros ds s D. destruct (densities_lengths _ _ _ D) as [_ LD].
    assert (LL : List.length es = List.length (ds ++ [0])) by (rewrite app_length; cbn [List.length]; lia).
    assert (X : neutrino pdg -> make_grid_source_xy pdg es (ds ++ [0]) IConstant = make_grid_source pdg (mkgrid IConstant EZero (combine es (ds ++ [0])))).
    { intros N. unfold make_grid_source_xy. apply check_pid_ok in N. rewrite N. cbn [bind]. unfold make_grid. rewrite (proj2 (Nat.eqb_eq _ _) LL). reflexivity. }
    pose proof (proj1 (C40_accepts pdg (mkgrid IConstant EZero (combine es (ds ++ [0])))) s) as C. cbn [g_im g_em g_pts] in C.
    rewrite combine_length, <- LL, Nat.min_id in C.
    rewrite (forall_combine (fun x => 0 <= x) (fun x => 0 <= x) es (ds ++ [0]) LL), (map_snd_combine es (ds ++ [0]) LL), sumR_app in C. cbn [sumR] in C.
    assert (F0 : Forall (fun x => 0 <= x) (ds ++ [0]) <-> Forall (fun d => 0 <= d) ds).
    { rewrite Forall_app. split; [tauto|]. intros F. split; [exact F|]. constructor; [lra|constructor]. }
    split.
    - intros H. destruct (C40_vectors _ _ _ _ _ H) as [_ H']. apply C in H'. destruct H' as (E & N & L2 & [F1 F2] & P). apply F0 in F2. repeat split; try assumption; [lia|lra].
    - intros (E & N & L2 & F1 & F2 & P). rewrite (X N). apply C. split; [exact E|]. split; [exact N|]. split; [lia|]. split; [split; [exact F1|apply F0; exact F2]|lra]. }
  split; [|split].
  - split.
    + intros [s H]. apply th1_form in H. fold es ps in H. destruct H as (ds & D & H). apply (K ds s D) in H. destruct H as (_ & N & L1 & F1 & F2 & P).
      destruct (signs _ _ _ D) as [S1 S2]. apply S1 in F2. split; [exact N|]. split; [intros ->; cbn in L1; lia|]. split; [exact (densities_ascending _ _ _ D)|]. split; [exact F1|]. split; [exact F2|]. apply (S2 F2). exact P.
    + intros (N & NE & A & F1 & F2 & X). destruct (densities_exist es ps A LE) as [ds D]. destruct (signs _ _ _ D) as [S1 S2].
      eexists. apply th1_form. fold es ps. exists ds. split; [exact D|]. apply (K ds _ D). split; [reflexivity|]. split; [exact N|]. split; [destruct bins; [congruence|unfold ps; cbn [map List.length]; lia]|].
      split; [exact F1|]. split; [apply S1; exact F2|apply (S2 F2); exact X].
  - intros s H. apply th1_form in H. fold es ps in H. destruct H as (ds & D & H). apply (K ds s D) in H. destruct H as (-> & _). reflexivity.
  - intros e H. exact (only_th1_source _ _ _ H).
Qed.
Print Assumptions C80_histograms.

(** The density in a bin is its content divided by its width; below the first edge and above
    the last one it is zero. (A first edge of zero becomes the smallest positive double.) *)
Theorem C80_density pdg bins top over s : th1_source pdg (Some (TH1 bins top over)) = Ok s -> let es := map fst bins ++ [top] in
  (forall x, In x es -> x = 0 \/ tiny < x) ->
  (forall i e w e' E, nth_error bins i = Some (e, w) -> nth_error es (S i) = Some e' -> e < E <= e' -> tiny < E -> pdf s E = Ok (Fin (w / (e' - e)))) /\
  (forall e0 E, nth_error es 0 = Some e0 -> E < e0 \/ E < tiny \/ top < E -> pdf s E = Ok (Fin 0)).
Proof.
  intros H es T. apply th1_form in H. fold es in H. destruct H as (ds & D & H). split.
  - intros i e w e' E Hi He HE Ht. apply (hist_value pdg s es (map snd bins) ds i e e' w E D H T); try assumption.
    + unfold es. rewrite nth_error_app1; [exact (map_nth_error fst i bins Hi)|]. rewrite map_length. apply nth_error_Some. congruence.
    + exact (map_nth_error snd i bins Hi).
  - intros e0 E H0 HE. pose proof (densities_increasing es _ ds (ds ++ [0]) D) as INC.
    destruct (C40_density _ _ _ _ _ H INC T) as (lo & hi & E1 & E2 & _ & O & _); [intros [X|X]; discriminate|].
    destruct (C40_vectors _ _ _ _ _ H) as [LL H']. apply (proj1 (C40_accepts _ _)) in H'. cbn [g_im g_em g_pts] in H'. destruct H' as (-> & _ & L2 & HF & _).
    cbn [source_Emin source_Emax] in E1, E2. unfold grid_front, grid_back in E1, E2. cbn [g_pts] in E1, E2.
    assert (C : exists d0 r, combine es (ds ++ [0]) = (e0, d0) :: r).
    { destruct es as [|x es']; [discriminate|]. cbn [nth_error] in H0. injection H0 as ->. destruct (ds ++ [0]) as [|d0 r] eqn:Q; [destruct ds; discriminate|]. cbn [combine]. eexists. eexists. reflexivity. }
    assert (Z : exists l, combine es (ds ++ [0]) = l ++ [(top, 0)]).
    { destruct (densities_lengths _ _ _ D) as [_ X]. rewrite map_length in X. unfold es. exists (combine (map fst bins) ds). apply combine_last. rewrite map_length. symmetry. exact X. }
    destruct C as (d0 & r & C). destruct Z as (l & Z).
    assert (FF : 0 <= top /\ 0 <= e0).
    { rewrite Forall_forall in HF. split; [apply (HF (top, 0)); rewrite Z; apply in_or_app; right; left; reflexivity|apply (HF (e0, d0)); rewrite C; left; reflexivity]. }
    assert (LT : e0 < top).
    { apply (densities_sorted _ _ _ D 0 (List.length bins) e0 top); [|exact H0|].
      - rewrite combine_length, <- LL, Nat.min_id in L2. unfold es in L2. rewrite app_length, map_length in L2. cbn [List.length] in L2. lia.
      - unfold es. rewrite nth_error_app2; rewrite map_length; [|lia]. rewrite Nat.sub_diag. reflexivity. }
    apply O. rewrite C in E1. rewrite Z, map_app, rev_app_distr in E2. cbn [map rev app bind lift_zero fst snd] in E1, E2. injection E1 as <-. injection E2 as <-.
    pose proof tiny_pos. destruct (T e0 (nth_error_In _ _ H0)) as [V|V].
    + destruct (Req_EM_T e0 0); [|lra]. destruct (Req_EM_T top 0); [lra|]. lra.
    + destruct (Req_EM_T e0 0); [lra|]. destruct (Req_EM_T top 0); [lra|]. lra.
Qed.
Print Assumptions C80_density.

(** The comment in the code says that energies come from the half-open interval without the
    left edge of the overflow bin. At that edge the density is that of the last bin. *)
Theorem C80_half_open_refuted : ~ (forall pdg bins top over s, th1_source pdg (Some (TH1 bins top over)) = Ok s -> pdf s top = Ok (Fin 0)).
Proof.
  intros H.
  assert (A : exists s, th1_source 12 (Some (TH1 [(1, 3)] 4 0)) = Ok s).
  { apply C80_histograms. cbn [map fst snd app]. split; [left; reflexivity|]. split; [discriminate|]. split.
    - intros [|[|i]] x y H1 H2; cbn [nth_error] in *; try discriminate; try (destruct i; discriminate). injection H1 as <-; injection H2 as <-; lra.
    - split; [repeat constructor; lra|]. split; [repeat constructor; lra|]. left. lra. }
  destruct A as [s A]. pose proof (H _ _ _ _ _ A) as B. pose proof tiny_small as T.
  destruct (C80_density _ _ _ _ _ A) as [C _]; [intros x [<-|[<-|[]]]; right; cbn [fst]; lra|].
  rewrite (C 0%nat 1 3 4 4 eq_refl eq_refl) in B by lra. injection B as B. lra.
Qed.
Print Assumptions C80_half_open_refuted.

(** The source of a histogram is the one that the configuration type "hist" makes from the
    same edges and contents, and fails when that one does. *)
Theorem C80_same_histogram type pdg j bins top over : In type ["hist"; "histogram"]%string ->
  vector j "E_bin_lefts" (map fst bins) -> vector j "weights" (map snd bins) -> entry j "Emax" None = Some top ->
  make_source (b type) pdg j = th1_source pdg (Some (TH1 bins top over)).
Proof.
  intros HT V1 V2 V3. apply vector_ok in V1, V2. apply source_entry in V3.
  assert (E : make_source (b type) pdg j = (do _ <- check_positive top; do ds <- bin_densities (map fst bins ++ [top]) (map snd bins ++ [0]); make_grid_source_xy pdg (map fst bins ++ [top]) ds IConstant)).
  { destruct HT as [<-|[<-|[]]].
    - change (make_source (b "hist") pdg j) with (do es <- get_vector (b "E_bin_lefts") j; do ws <- get_vector (b "weights") j; if negb (Nat.eqb (List.length es) (List.length ws)) then Er MarleyErr else
        do hi <- source_double (b "Emax") j; do _ <- check_positive hi; do ds <- bin_densities (es ++ [hi]) (ws ++ [0]); make_grid_source_xy pdg (es ++ [hi]) ds IConstant).
      rewrite V1. cbn [bind]. rewrite V2. cbn [bind]. rewrite !map_length, Nat.eqb_refl. cbn [negb]. rewrite V3. reflexivity.
    - change (make_source (b "histogram") pdg j) with (do es <- get_vector (b "E_bin_lefts") j; do ws <- get_vector (b "weights") j; if negb (Nat.eqb (List.length es) (List.length ws)) then Er MarleyErr else
        do hi <- source_double (b "Emax") j; do _ <- check_positive hi; do ds <- bin_densities (es ++ [hi]) (ws ++ [0]); make_grid_source_xy pdg (es ++ [hi]) ds IConstant).
      rewrite V1. cbn [bind]. rewrite V2. cbn [bind]. rewrite !map_length, Nat.eqb_refl. cbn [negb]. rewrite V3. reflexivity. }
  rewrite E. clear E.
  assert (M : forall e, (do _ <- check_positive top; do ds <- bin_densities (map fst bins ++ [top]) (map snd bins ++ [0]); make_grid_source_xy pdg (map fst bins ++ [top]) ds IConstant) = Er e -> e = MarleyErr).
  { change (only (fun e => e = MarleyErr) (do _ <- check_positive top; do ds <- bin_densities (map fst bins ++ [top]) (map snd bins ++ [0]); make_grid_source_xy pdg (map fst bins ++ [top]) ds IConstant)).
    op; [apply only_positive|]. op; [apply only_bins|apply only_grid_xy]. }
  destruct (th1_source pdg (Some (TH1 bins top over))) as [s|e] eqn:T.
  - pose proof (proj1 (proj1 (C80_histograms pdg bins top over)) (ex_intro _ s T)) as (N & NE & A & F1 & _).
    apply th1_form in T. destruct T as (ds & D & H). destruct (bins_complete _ _ _ D) as (B1 & _).
    assert (P : 0 < top).
    { destruct bins as [|[e0 w0] r]; [congruence|]. pose proof (Forall_inv F1) as H0. cbn [map fst app] in H0.
      enough (e0 < top) by lra. apply (densities_sorted _ _ _ D 0 (List.length ((e0, w0) :: r))); [cbn [List.length]; lia|reflexivity|].
      rewrite nth_error_app2; rewrite map_length; [|lia]. rewrite Nat.sub_diag. reflexivity. }
    rewrite (proj2 (positive_ok top) P). cbn [bind]. rewrite B1. cbn [bind]. exact H.
  - rewrite (only_th1_source _ _ _ T).
    destruct (do _ <- check_positive top; do ds <- bin_densities (map fst bins ++ [top]) (map snd bins ++ [0]); make_grid_source_xy pdg (map fst bins ++ [top]) ds IConstant) as [s|e'] eqn:Q; [|rewrite (M _ eq_refl); reflexivity].
    exfalso. clear M. bind_in Q. bind_in Q. destruct (bins_ok _ _ _ E0 (edges_length bins top)) as (ds & -> & D).
    assert (th1_source pdg (Some (TH1 bins top over)) = Ok s) by (apply th1_form; exists ds; split; assumption). congruence.
Qed.
Print Assumptions C80_same_histogram.

(** The source of a graph is the one that the configuration type "grid" makes from the same
    points with linear interpolation. *)
Theorem C80_same_graph pdg j pts : 
  vector j "energies" (map fst pts) -> vector j "prob_densities" (map snd pts) -> held j "rule" = None \/ word j "rule" = Some (b "linlin") \/ word j "rule" = Some (b "lin") ->
  make_source (b "grid") pdg j = tgraph_source pdg (Some (TGraph pts)).
Proof.
  intros V1 V2 V3. apply vector_ok in V1, V2.
  change (make_source (b "grid") pdg j) with (do es <- get_vector (b "energies") j; do ps <- get_vector (b "prob_densities") j; do rule <- text (b "rule") j (Ok (b "linlin")); do im <- interpolation_method rule; make_grid_source_xy pdg es ps im).
  rewrite V1. cbn [bind]. rewrite V2. cbn [bind].
  destruct V3 as [V3|[V3|V3]].
  - rewrite (proj2 (text_word "rule" j (Ok (b "linlin")) (b "linlin")) (or_intror (conj V3 eq_refl))). reflexivity.
  - rewrite (proj2 (text_word "rule" j (Ok (b "linlin")) (b "linlin")) (or_introl V3)). reflexivity.
  - rewrite (proj2 (text_word "rule" j (Ok (b "linlin")) (b "lin")) (or_introl V3)). reflexivity.
Qed.
Print Assumptions C80_same_graph.

(** Which graphs are accepted, and the density they give: the straight line between
    neighbouring points, zero outside. (The order of the points is not checked, and a point
    at energy zero is moved to the smallest positive double.) *)
Theorem C80_graphs pdg pts :
  ((exists s, tgraph_source pdg (Some (TGraph pts)) = Ok s) <->
     neutrino pdg /\ (2 <= List.length pts)%nat /\ Forall (fun p => 0 <= fst p /\ 0 <= snd p) pts /\ 0 < sumR (map snd pts)) /\
  (forall e, tgraph_source pdg (Some (TGraph pts)) = Er e -> e = MarleyErr) /\
  forall s, tgraph_source pdg (Some (TGraph pts)) = Ok s -> source_pid s = pdg /\
    (increasing pts -> (forall p, In p pts -> fst p = 0 \/ tiny < fst p) ->
      (forall i p q E, nth_error pts i = Some p -> nth_error pts (S i) = Some q -> 0 < fst p -> fst p <= E <= fst q ->
         pdf s E = Ok (Fin (snd p + (snd q - snd p) * (E - fst p) / (fst q - fst p)))) /\
      (forall p q E, nth_error pts 0 = Some p -> nth_error pts (List.length pts - 1) = Some q -> 0 < fst p -> E < fst p \/ fst q < E -> pdf s E = Ok (Fin 0))).
Proof.
  assert (CB : combine (map fst pts) (map snd pts) = pts) by (induction pts as [|[x y] r IH]; [reflexivity|]; cbn [map fst snd combine]; rewrite IH; reflexivity).
  assert (LL : List.length (map fst pts) = List.length (map snd pts)) by (rewrite !map_length; reflexivity).
  pose proof (fun s => proj1 (C40_accepts pdg (mkgrid ILinLin EZero pts)) s) as C. cbn [g_im g_em g_pts] in C.
  assert (K : forall s, tgraph_source pdg (Some (TGraph pts)) = Ok s <-> make_grid_source pdg (mkgrid ILinLin EZero pts) = Ok s).
  { intros s. cbn [tgraph_source]. split.
    - intros H. destruct (C40_vectors _ _ _ _ _ H) as [_ H']. rewrite CB in H'. exact H'.
    - intros H. pose proof (proj1 (C s) H) as (_ & N & _). unfold make_grid_source_xy. apply check_pid_ok in N. rewrite N. cbn [bind]. unfold make_grid. rewrite (proj2 (Nat.eqb_eq _ _) LL), CB. exact H. }
  split; [|split].
  - split; [intros [s H]; apply K, C in H; tauto|]. intros H. eexists. apply K, C. split; [reflexivity|exact H].
  - intros e H. exact (only_tgraph_source _ _ _ H).
  - intros s H. apply K, C in H. destruct H as (-> & _ & L2 & F & _). split; [reflexivity|]. intros INC T.
    set (g := mkgrid ILinLin EZero (map lift_zero pts)).
    assert (I' : increasing (g_pts g)) by (apply lifted_increasing; assumption).
    assert (U : usable (g_im g) (g_pts g)) by (split; intros [X|X]; discriminate).
    assert (LZ : forall i p, nth_error pts i = Some p -> 0 < fst p -> nth_error (g_pts g) i = Some p).
    { intros i [x y] Hp P. cbn [g g_pts]. rewrite (map_nth_error lift_zero i pts Hp). unfold lift_zero. cbn [fst snd] in *. destruct (Req_EM_T x 0); [lra|reflexivity]. }
    split.
    + intros i p q E Hp Hq P HE. pose proof (INC i (S i) p q (Nat.lt_succ_diag_r i) Hp Hq) as L. pose proof (LZ i p Hp P) as Gp. pose proof (LZ (S i) q Hq ltac:(lra)) as Gq. cbn [pdf]. fold g.
      destruct (Req_EM_T E (fst p)) as [->|NE].
      * destruct p as [x y]. cbn [fst snd] in *. rewrite (C38_grid_points g i x y); try assumption; [|cbn [g g_pts]; rewrite map_length; exact L2|discriminate]. do 2 f_equal. field. lra.
      * destruct (C38_between g i p q E I' U Gp Gq) as [-> _]; [lra|]. cbn [g g_im rule]. unfold line. do 2 f_equal. field. lra.
    + intros p q E Hp Hq P HE. cbn [pdf]. fold g.
      assert (L1 : exists p1, nth_error (g_pts g) 1 = Some p1) by (destruct (nth_error (g_pts g) 1) eqn:X; [eauto|]; apply nth_error_None in X; cbn [g g_pts] in X; rewrite map_length in X; lia).
      assert (L3 : exists a, nth_error (g_pts g) (List.length (g_pts g) - 2) = Some a) by (destruct (nth_error (g_pts g) (List.length (g_pts g) - 2)) eqn:X; [eauto|]; apply nth_error_None in X; cbn [g g_pts] in X; rewrite map_length in X; lia).
      destruct L1 as [p1 L1]. destruct L3 as [a L3]. pose proof (INC 0%nat (List.length pts - 1)%nat p q ltac:(lia) Hp Hq) as L.
      pose proof (LZ _ q Hq ltac:(lra)) as Gq. replace (List.length pts) with (List.length (g_pts g)) in Gq by (cbn [g g_pts]; apply map_length).
      exact (C38_outside g E p p1 a q I' (LZ _ p Hp P) L1 L3 Gq HE).
Qed.
Print Assumptions C80_graphs.

(** ** The configuration *)

(** Where a configuration says the object is: the file, the name and what is found. *)
Definition finds (files : root_files) (spec : json) (o : option root_object) : Prop :=
  exists f n objects, word spec "tfile" = Some f /\ word spec "namecycle" = Some n /\ files f = Some objects /\ objects n = o.

(** A source description is accepted if it is one of those that do not need ROOT, or if its
    type is "th1" or "tgraph" and the file and object it names exist and are accepted. *)
Theorem C80_described files spec type pdg s : word spec "type" = Some type -> neutrino pdg ->
  (make_source_root files type pdg spec = Ok s <->
   described spec pdg s \/
   (exists bins top over, type = b "th1" /\ finds files spec (Some (TH1 bins top over)) /\ th1_source pdg (Some (TH1 bins top over)) = Ok s) \/
   (exists pts, type = b "tgraph" /\ finds files spec (Some (TGraph pts)) /\ tgraph_source pdg (Some (TGraph pts)) = Ok s)) /\
  (forall e, make_source_root files type pdg spec = Er e -> e = MarleyErr \/ e = StdRange /\ exists r, word spec "rule" = Some r /\ huge r).
Proof.
  intros W N. pose proof (C53_sources spec type pdg s W N) as CS.
  assert (OWN : described spec pdg s -> one_of type own_types = true).
  { intros D. assert (X : exists l, named spec l /\ incl l own_types).
    { destruct D as [? N1|N1|? ? ? ? ? N1|? ? ? ? ? N1|? ? ? ? ? N1|? ? ? ? N1]; eexists; (split; [exact N1|]); intros n Hn; cbn in Hn; cbn; tauto. }
    destruct X as (l & (n & I1 & I2) & I3). apply one_of_spec. exists n. split; [exact (I3 n I1)|congruence]. }
  unfold make_source_root, extra_source. destruct (one_of type own_types) eqn:O.
  { split; [|intros e H; exact (only_make_source _ _ _ _ H)]. rewrite CS. split; [auto|]. intros [D|[(? & ? & ? & -> & _)|(? & -> & _)]]; [exact D| |]; discriminate O. }
  split.
  - split.
    + intros H. right. destruct (one_of type ["th1"; "tgraph"]%string) eqn:T; [|discriminate].
      bind_in H. apply word_of_text in E. rename a into f. bind_in H. apply word_of_text in E0. rename a into n. bind_in H. unfold get_root_object in E1. destruct (files f) as [objs|] eqn:Ff; [|discriminate].
      assert (a = objs n) as -> by congruence. destruct (one_of type ["th1"]%string) eqn:T1.
      * left. apply one_of_spec in T1. destruct T1 as (m & [<-|[]] & ->). destruct (objs n) as [[bins top over|pts|]|] eqn:On; try discriminate H. exists bins, top, over. split; [reflexivity|]. split; [|exact H]. exists f, n, objs. auto.
      * right. apply one_of_spec in T. destruct T as (m & [<-|[<-|[]]] & ->); [discriminate T1|]. destruct (objs n) as [[bins top over|pts|]|] eqn:On; try discriminate H. exists pts. split; [reflexivity|]. split; [|exact H]. exists f, n, objs. auto.
    + intros [D|[(bins & top & over & -> & (f & n & objs & W1 & W2 & F1 & F2) & H)|(pts & -> & (f & n & objs & W1 & W2 & F1 & F2) & H)]]; [apply OWN in D; discriminate| |].
      * change (one_of (b "th1") ["th1"; "tgraph"]%string) with true. cbv iota. rewrite (proj2 (text_word "tfile" spec (Er MarleyErr) f) (or_introl W1)). cbn [bind].
        rewrite (proj2 (text_word "namecycle" spec (Er MarleyErr) n) (or_introl W2)). cbn [bind]. unfold get_root_object. rewrite F1, F2. cbn [bind]. exact H.
      * change (one_of (b "tgraph") ["th1"; "tgraph"]%string) with true. cbv iota. rewrite (proj2 (text_word "tfile" spec (Er MarleyErr) f) (or_introl W1)). cbn [bind].
        rewrite (proj2 (text_word "namecycle" spec (Er MarleyErr) n) (or_introl W2)). cbn [bind]. unfold get_root_object. rewrite F1, F2. cbn [bind]. exact H.
  - intros e H. left. revert e H. destruct (one_of type ["th1"; "tgraph"]%string); [|intros e H; congruence].
    match goal with |- forall e, ?r = Er e -> e = MarleyErr => change (only (fun e => e = MarleyErr) r) end.
    op; [apply only_text; op|]. op; [apply only_text; op|]. op; [unfold get_root_object; destruct (files x); op|]. op; [apply only_th1_source|apply only_tgraph_source].
Qed.
Print Assumptions C80_described.

(** With a source of another type, the ROOT version of the configuration step is the
    ordinary one, and no ROOT file is looked at. *)
Theorem C80_others files j z : (forall spec, held j "source" = Some spec -> word spec "type" <> Some (b "th1") /\ word spec "type" <> Some (b "tgraph")) ->
  prepare_source_root files j z = prepare_source j z.
Proof.
  intros H. unfold prepare_source_root, prepare_source.
  match goal with |- bind ?r _ = bind ?r _ => destruct r as [z'|e]; [|reflexivity] end. cbn [bind].
  key "source" j; [|reflexivity]. specialize (H v eq_refl). cbn [negb].
  assert (X : forall v, (word v "type" <> Some (b "th1") /\ word v "type" <> Some (b "tgraph")) -> forall pdg type, text (b "type") v (Er MarleyErr) = Ok type -> make_source_root files type pdg v = make_source type pdg v).
  { clear. intros v H pdg type T. apply word_of_text in T. unfold make_source_root. destruct (one_of type own_types) eqn:O; [reflexivity|].
    assert (X : one_of type ["th1"; "tgraph"]%string = false).
    { destruct (one_of type ["th1"; "tgraph"]%string) eqn:T'; [|reflexivity]. apply one_of_spec in T'. destruct T' as (n & [<-|[<-|[]]] & ->); destruct H; congruence. }
    unfold extra_source. rewrite X. symmetry. unfold make_source.
    assert (Y : forall l, incl l own_types -> one_of type l = false).
    { intros l I0. destruct (one_of type l) eqn:T'; [|reflexivity]. apply one_of_spec in T'. destruct T' as (n & I1 & I2). assert (one_of type own_types = true) by (apply one_of_spec; exists n; auto). congruence. }
    rewrite !Y; [reflexivity|..]; intros n Hn; cbn in Hn; cbn; tauto. }
  destruct v; try reflexivity; (destruct (text (b "type") _ _) as [type|] eqn:T; [|reflexivity]; cbn [bind]; destruct (text (b "neutrino") _ _) as [nu|]; [|reflexivity]; cbn [bind]; destruct (neutrino_pdg nu) as [pdg|]; [|reflexivity]; cbn [bind];
    rewrite (X _ H pdg type T); reflexivity).
Qed.
Print Assumptions C80_others.

(** A configuration that names a ROOT histogram prepares the generator exactly as one that
    lists its edges and contents does. *)
Theorem C80_replaced files j j' z spec spec' bins top over :
  held j "energy_pdf_max" = held j' "energy_pdf_max" -> held j "source" = Some spec -> held j' "source" = Some spec' ->
  held spec "neutrino" = held spec' "neutrino" -> held spec "weight_flux" = held spec' "weight_flux" ->
  word spec "type" = Some (b "th1") -> finds files spec (Some (TH1 bins top over)) ->
  word spec' "type" = Some (b "hist") -> vector spec' "E_bin_lefts" (map fst bins) -> vector spec' "weights" (map snd bins) -> entry spec' "Emax" None = Some top ->
  prepare_source_root files j z = prepare_source j' z.
Proof.
  intros K1 K2 K3 K4 K5 T (f & n & objs & W1 & W2 & F1 & F2) T' V1 V2 V3.
  assert (EN : forall d, number (b "energy_pdf_max") j d = number (b "energy_pdf_max") j' d).
  { intros d. unfold number. rewrite !(has_value "energy_pdf_max"). rewrite K1. destruct (held j' "energy_pdf_max") as [v|] eqn:E; [|reflexivity]. rewrite (at_value _ _ _ E), (at_value _ _ _ K1). reflexivity. }
  assert (ET : text (b "neutrino") spec (Er MarleyErr) = text (b "neutrino") spec' (Er MarleyErr)).
  { unfold text. rewrite !(has_value "neutrino"). rewrite K4. destruct (held spec' "neutrino") as [v|] eqn:E; [|reflexivity]. rewrite (at_value _ _ _ E), (at_value _ _ _ K4). reflexivity. }
  unfold prepare_source_root, prepare_source. rewrite !(has_value "energy_pdf_max"), !(has_value "source"). rewrite K2, K3. cbn [negb]. rewrite EN. rewrite K1.
  match goal with |- bind ?r _ = bind ?r _ => destruct r as [z'|e]; [|reflexivity] end. cbn [bind].
  rewrite (at_value _ _ _ K2), (at_value _ _ _ K3). cbn [bind].
  assert (O : forall v k x, word v k = Some x -> exists l, v = JObj l) by (intros v k x H; destruct v; try discriminate; eauto).
  destruct (O _ _ _ T) as [l ->]. destruct (O _ _ _ T') as [l' ->]. clear O.
  rewrite (proj2 (text_word "type" (JObj l) (Er MarleyErr) (b "th1")) (or_introl T)), (proj2 (text_word "type" (JObj l') (Er MarleyErr) (b "hist")) (or_introl T')). cbn [bind]. rewrite ET.
  destruct (text (b "neutrino") (JObj l') (Er MarleyErr)) as [nu|]; [|reflexivity]. cbn [bind]. destruct (neutrino_pdg nu) as [pdg|]; [|reflexivity]. cbn [bind].
  assert (ES : make_source_root files (b "th1") pdg (JObj l) = make_source (b "hist") pdg (JObj l')).
  { rewrite (C80_same_histogram "hist" pdg (JObj l') bins top over (or_introl eq_refl) V1 V2 V3). unfold make_source_root, extra_source.
    change (one_of (b "th1") own_types) with false. change (one_of (b "th1") ["th1"; "tgraph"]%string) with true. cbv iota.
    rewrite (proj2 (text_word "tfile" (JObj l) (Er MarleyErr) f) (or_introl W1)). cbn [bind]. rewrite (proj2 (text_word "namecycle" (JObj l) (Er MarleyErr) n) (or_introl W2)). cbn [bind].
    unfold get_root_object. rewrite F1, F2. reflexivity. }
  rewrite ES. destruct (make_source (b "hist") pdg (JObj l')) as [s|]; [|reflexivity]. cbn [bind].
  rewrite !(has_value "weight_flux"), K5. destruct (held (JObj l') "weight_flux") as [v|] eqn:E; [|reflexivity]. rewrite (at_value _ _ _ E), (at_value _ _ _ K5). reflexivity.
Qed.
Print Assumptions C80_replaced.

(** ** Cases *)

Definition case_bins : list (R * R) := [(0, 2); (1, 6)].
Definition case_root : root_files := fun f => if bytes_eqb f (b "flux.root") then Some (fun n => if bytes_eqb n (b "spectrum") then Some (TH1 case_bins 4 7) else if bytes_eqb n (b "curve") then Some (TGraph [(1, 0); (3, 4)]) else None) else None.
Definition case_spec (type name : string) : json := JObj [(b "type", JStr (b type)); (b "tfile", JStr (b "flux.root")); (b "namecycle", JStr (b name))].

(** Two bins, from 0 to 1 and from 1 to 4, and an overflow bin that is not empty: accepted,
    and the densities are the contents over the widths. *)
Example C80_histogram_case : exists s, make_source_root case_root (b "th1") 12 (case_spec "th1" "spectrum") = Ok s /\
  pdf s (1 / 2) = Ok (Fin 2) /\ pdf s 3 = Ok (Fin 2) /\ pdf s 4 = Ok (Fin 2) /\ pdf s 5 = Ok (Fin 0) /\ pdf s 1 = Ok (Fin 2).
Proof.
  assert (X : exists s, th1_source 12 (Some (TH1 case_bins 4 7)) = Ok s).
  { apply C80_histograms. cbn [map fst snd app case_bins]. split; [left; reflexivity|]. split; [discriminate|]. split.
    - intros [|[|[|i]]] x y H1 H2; cbn [nth_error] in *; try discriminate; try (destruct i; discriminate); injection H1 as <-; injection H2 as <-; lra.
    - split; [repeat constructor; lra|]. split; [repeat constructor; lra|]. left. lra. }
  destruct X as [s X]. exists s. split; [exact X|].
  assert (TS : tiny < 1 / 2).
  { unfold tiny. change ((/ 2) ^ 1074) with (/ 2 * (/ 2) ^ 1073). assert ((/ 2) ^ 1073 < 1) by (apply pow_lt_1_compat; [lra|apply Nat.lt_0_succ]). lra. }
  destruct (C80_density _ _ _ _ _ X) as [C D]; [intros x [<-|[<-|[<-|[]]]]; cbn [fst]; [left; reflexivity|right; lra|right; lra]|].
  split; [rewrite (C 0%nat 0 2 1 (1 / 2) eq_refl eq_refl) by lra; do 2 f_equal; lra|].
  split; [rewrite (C 1%nat 1 6 4 3 eq_refl eq_refl) by lra; do 2 f_equal; lra|].
  split; [rewrite (C 1%nat 1 6 4 4 eq_refl eq_refl) by lra; do 2 f_equal; lra|].
  split; [apply (D 0 5 eq_refl); lra|]. rewrite (C 0%nat 0 2 1 1 eq_refl eq_refl) by lra; do 2 f_equal; lra.
Qed.

Example C80_graph_case : exists s, make_source_root case_root (b "tgraph") 14 (case_spec "tgraph" "curve") = Ok s /\ pdf s 2 = Ok (Fin 2) /\ pdf s 3 = Ok (Fin 4).
Proof.
  destruct (C80_graphs 14 [(1, 0); (3, 4)]) as (A & _ & B). destruct (proj2 A) as [s X].
  { split; [right; right; left; reflexivity|]. split; [cbn; lia|]. split; [repeat constructor; cbn [fst snd]; lra|]. cbn [map snd sumR]. lra. }
  exists s. split; [exact X|]. destruct (B s X) as [_ D]. pose proof tiny_small.
  destruct D as [D _].
  - intros [|[|i]] [|[|k]] p q L H1 H2; cbn [nth_error] in *; try lia; try (destruct i; discriminate); try (destruct k; discriminate). injection H1 as <-. injection H2 as <-. cbn [fst]. lra.
  - intros p [<-|[<-|[]]]; right; cbn [fst]; lra.
  - split; rewrite (D 0%nat (1, 0) (3, 4) _ eq_refl eq_refl) by (cbn [fst]; lra); cbn [fst snd]; do 2 f_equal; field.
Qed.

(** A missing file, a missing object, an object of the wrong class and a missing key are
    refused. *)
Example C80_refused_case :
  make_source_root (fun _ => None) (b "th1") 12 (case_spec "th1" "spectrum") = Er MarleyErr /\
  make_source_root case_root (b "th1") 12 (case_spec "th1" "other") = Er MarleyErr /\
  make_source_root case_root (b "th1") 12 (case_spec "th1" "curve") = Er MarleyErr /\
  make_source_root case_root (b "tgraph") 12 (case_spec "tgraph" "spectrum") = Er MarleyErr /\
  make_source_root case_root (b "th1") 12 (JObj [(b "type", JStr (b "th1"))]) = Er MarleyErr /\
  make_source_root case_root (b "th2") 12 (case_spec "th2" "spectrum") = Er MarleyErr.
Proof. repeat split. Qed.

Lemma case_numbers : dbl_R (dbl_of_int 0) = 0 /\ dbl_R (dbl_of_int 1) = 1 /\ dbl_R (dbl_of_int 2) = 2 /\ dbl_R (dbl_of_int 4) = 4 /\ dbl_R (dbl_of_int 6) = 6.
Proof.
  split; [reflexivity|]. repeat split; (match goal with |- dbl_R ?d = _ => let v := eval vm_compute in d in change d with v end); apply ConfigCases.dbl_exact; vm_compute; reflexivity.
Qed.

(** The configuration steps of C80_replaced and C80_others. *)
Example C80_replaced_case : forall z,
  let nu := (b "neutrino", JStr (b "ve")) in
  let listed := JObj [(b "type", JStr (b "hist")); nu; (b "E_bin_lefts", JArr [JInt 0; JInt 1]); (b "weights", JArr [JInt 2; JInt 6]); (b "Emax", JInt 4)] in
  let named := JObj [(b "type", JStr (b "th1")); nu; (b "tfile", JStr (b "flux.root")); (b "namecycle", JStr (b "spectrum"))] in
  prepare_source_root case_root (JObj [(b "source", named)]) z = prepare_source (JObj [(b "source", listed)]) z /\
  prepare_source_root case_root (JObj [(b "source", listed)]) z = prepare_source (JObj [(b "source", listed)]) z.
Proof.
  intros z nu listed nm. destruct case_numbers as (N0 & N1 & N2 & N4 & N6). split.
  - apply (C80_replaced case_root _ _ z nm listed case_bins 4 7); try reflexivity.
    + exists (b "flux.root"), (b "spectrum"). eexists. repeat split; reflexivity.
    + exists [JInt 0; JInt 1]. split; [reflexivity|]. repeat (apply Forall2_cons || apply Forall2_nil); cbn [numeric]; rewrite ?N0, ?N1; reflexivity.
    + exists [JInt 2; JInt 6]. split; [reflexivity|]. repeat (apply Forall2_cons || apply Forall2_nil); cbn [numeric]; rewrite ?N2, ?N6; reflexivity.
    + unfold entry. change (held listed "Emax") with (Some (JInt 4)). cbn [numeric]. rewrite N4. reflexivity.
  - apply C80_others. intros spec H. injection H as <-. split; discriminate.
Qed.
