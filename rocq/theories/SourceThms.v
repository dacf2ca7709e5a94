(** Properties C39 and C40: neutrino sources. *)
From Coq Require Import List ZArith Reals Bool Lia Lra Psatz.
From Verif Require Import Base Sample SampleProofs XReal Grid GridThms Quad QuadThms Mass Source.
Import ListNotations.
Open Scope R_scope.

(** ** C39: vocabulary *)

Definition neutrino (pdg : Z) : Prop := (pdg = 12 \/ pdg = -12 \/ pdg = 14 \/ pdg = -14 \/ pdg = 16 \/ pdg = -16)%Z.

(** A source that one of the constructors returned for sensible arguments. *)
Inductive proper : source -> Prop :=
| proper_mono pid E s : make_mono pid E = Ok s -> proper s
| proper_fermi pid lo hi T eta s : 0 <= lo < hi -> 0 < T -> make_fermi pid lo hi T eta = Ok s -> proper s
| proper_beta pid lo hi Em beta s : 0 <= lo < hi -> 0 < Em -> make_beta pid lo hi Em beta = Ok s -> proper s
| proper_function pid lo hi f s : lo < hi -> (forall E, lo <= E <= hi -> 0 <= f E) -> (forall E, lo < E < hi -> 0 < f E) ->
    make_function pid lo hi f = Ok s -> proper s
| proper_dar pid s : make_dar pid = Ok s -> proper s
| proper_grid pid im xs ys s : increasing (combine xs ys) -> (forall x, In x xs -> x = 0 \/ tiny < x) ->
    (im = ILogLin \/ im = ILogLog -> forall y, In y ys -> 0 < y) -> make_grid_source_xy pid xs ys im = Ok s -> proper s.

(** ** Helpers *)

Lemma pid_ok pdg : pdg_is_allowed pdg = true <-> neutrino pdg.
Proof.
  unfold pdg_is_allowed, source_pids, neutrino. cbn [existsb]. rewrite !orb_true_iff, !Z.eqb_eq. intuition discriminate.
Qed.

Lemma check_pid_ok pdg : check_pid pdg = Ok tt <-> neutrino pdg.
Proof. unfold check_pid. rewrite <- pid_ok. destruct (pdg_is_allowed pdg); split; congruence. Qed.
Lemma check_pid_er pdg e : check_pid pdg = Er e -> e = MarleyErr /\ ~ neutrino pdg.
Proof. unfold check_pid. rewrite <- pid_ok. destruct (pdg_is_allowed pdg); intros H; [discriminate|]. injection H as <-. split; congruence. Qed.

Lemma with_pid {A} pdg (k : res A) r : (do _ <- check_pid pdg; k) = Ok r -> neutrino pdg /\ k = Ok r.
Proof. destruct (check_pid pdg) as [[]|e] eqn:E; cbn [bind]; intros H; [|discriminate]. split; [apply check_pid_ok, E|exact H]. Qed.

Lemma within_out lo hi E v : E < lo \/ hi < E -> within lo hi E v = 0.
Proof. intros H. unfold within. destruct (Rlt_dec E lo); [reflexivity|]. destruct (Rlt_dec hi E); [reflexivity|]. exfalso. lra. Qed.
Lemma within_in lo hi E v : lo <= E <= hi -> within lo hi E v = v.
Proof. intros H. unfold within. destruct (Rlt_dec E lo); [lra|]. destruct (Rlt_dec hi E); [lra|]. reflexivity. Qed.

Lemma integral_pos f lo hi : lo < hi -> (forall x, lo <= x <= hi -> 0 <= f x) -> (forall x, lo < x < hi -> 0 < f x) -> 0 < utils_integrate f lo hi.
Proof.
  intros Hl H0 H1. unfold utils_integrate. destruct (C61_monotone 50 (fun _ => 0) f lo hi ltac:(lia) ltac:(lra) H0) as [_ P]. specialize (P Hl H1).
  replace 0 with (num_integrate 50 (fun _ => 0) lo hi); [exact P|]. destruct (C61_linear 50 (fun _ => 0) (fun _ => 0) 0 0 lo hi) as [L _].
  transitivity (num_integrate 50 (fun x => 0 * (fun _ => 0) x + 0 * (fun _ => 0) x) lo hi); [|rewrite L; ring].
  apply C61_inside; [lra|]. intros; ring.
Qed.

Lemma integral_scaled f g c lo hi : lo <= hi -> (forall x, lo <= x <= hi -> g x = c * f x) -> utils_integrate g lo hi = c * utils_integrate f lo hi.
Proof.
  intros Hl H. unfold utils_integrate. destruct (C61_linear 50 f f c 0 lo hi) as [L _]. rewrite Rmult_0_l, Rplus_0_r in L. rewrite <- L.
  apply C61_inside; [exact Hl|]. intros x Hx. rewrite (H x Hx). ring.
Qed.

Lemma fermi_shape_pos T eta E : 0 < T -> E <> 0 -> 0 < 1 / T ^ 4 * (E ^ 2 / (1 + exp (E / T - eta))).
Proof.
  intros HT HE. pose proof (exp_pos (E / T - eta)). apply Rmult_lt_0_compat; [apply Rdiv_lt_0_compat; [lra|apply pow_lt, HT]|].
  apply Rdiv_lt_0_compat; [|lra]. nra.
Qed.

Lemma cpow_nonneg x y : 0 <= cpow x y.
Proof. unfold cpow. destruct (Rlt_dec 0 x); [apply Rlt_le, exp_pos|]. destruct (Req_EM_T x 0); [|lra]. destruct (Req_EM_T y 0); lra. Qed.
Lemma cpow_pos x y : 0 < x -> 0 < cpow x y.
Proof. intros H. unfold cpow. destruct (Rlt_dec 0 x); [apply exp_pos|lra]. Qed.

(** The density before normalisation. *)
Lemma fermi_scaled lo hi T eta C E : fermi_pdf lo hi T eta C E = C * fermi_pdf lo hi T eta 1 E.
Proof. unfold fermi_pdf, within. destruct (Rlt_dec E lo); [ring|]. destruct (Rlt_dec hi E); [ring|]. unfold Rdiv. ring. Qed.
Lemma beta_scaled lo hi Em beta C E : beta_pdf lo hi Em beta C E = C * beta_pdf lo hi Em beta 1 E.
Proof.
  unfold beta_pdf, within. destruct (Rlt_dec E lo); [ring|]. destruct (Rlt_dec hi E); [ring|].
  destruct (if Req_EM_T E 0 then _ else false); ring.
Qed.

Lemma fermi_integral lo hi T eta : 0 <= lo < hi -> 0 < T -> 0 < utils_integrate (fermi_pdf lo hi T eta 1) lo hi.
Proof.
  intros Hl HT. apply integral_pos; [lra| |].
  - intros x Hx. unfold fermi_pdf. rewrite within_in by exact Hx. destruct (Req_EM_T x 0) as [->|N]; [unfold Rdiv; rewrite !pow_i by lia; rewrite Rmult_0_l, Rmult_0_r; lra|].
    apply Rlt_le, fermi_shape_pos; assumption.
  - intros x Hx. unfold fermi_pdf. rewrite within_in by lra. apply fermi_shape_pos; [exact HT|lra].
Qed.

Lemma beta_shape lo hi Em beta C E : 0 <= lo -> 1 <= beta -> lo <= E <= hi -> beta_pdf lo hi Em beta C E = C * cpow (E / Em) (beta - 1) * exp (- beta * E / Em).
Proof. intros Hl Hb HE. unfold beta_pdf. rewrite within_in by exact HE. destruct (Req_EM_T E 0); [|reflexivity]. destruct (Rlt_dec beta 1); [lra|reflexivity]. Qed.

Lemma beta_integral lo hi Em beta : 0 <= lo < hi -> 0 < Em -> 1 <= beta -> 0 < utils_integrate (beta_pdf lo hi Em beta 1) lo hi.
Proof.
  intros Hl HE Hb. apply integral_pos; [lra| |]; intros x Hx; rewrite beta_shape by lra; rewrite Rmult_1_l.
  - apply Rmult_le_pos; [apply cpow_nonneg|apply Rlt_le, exp_pos].
  - apply Rmult_lt_0_compat; [|apply exp_pos]. apply cpow_pos. apply Rdiv_lt_0_compat; lra.
Qed.

Lemma m_mu_pos : 0 < m_mu.
Proof. unfold m_mu, micro_amu. lra. Qed.

Lemma fourth_pos m : 0 < m -> 0 < 1 / (m * m * m * m).
Proof. intros H. apply Rdiv_lt_0_compat; [lra|]. repeat apply Rmult_lt_0_compat; exact H. Qed.

Lemma dar_nonneg pid E : 0 <= E <= dar_max -> 0 <= dar_pdf pid E.
Proof.
  intros HE. unfold dar_pdf. rewrite within_in by exact HE. unfold dar_max in HE. pose proof m_mu_pos as HM.
  assert (P : 0 < 1 / (m_mu * m_mu * m_mu * m_mu)) by (apply fourth_pos, HM).
  assert (Q : 0 <= E ^ 2 * (1 / (m_mu * m_mu * m_mu * m_mu))) by (apply Rmult_le_pos; [nra|lra]).
  destruct (Z.eqb (Z.abs pid) 12).
  - replace (96 * E ^ 2 * (1 / (m_mu * m_mu * m_mu * m_mu)) * (m_mu - 2 * E)) with (96 * (E ^ 2 * (1 / (m_mu * m_mu * m_mu * m_mu)) * (m_mu - 2 * E))) by ring.
    apply Rmult_le_pos; [lra|]. apply Rmult_le_pos; [exact Q|lra].
  - replace (16 * E ^ 2 * (1 / (m_mu * m_mu * m_mu * m_mu)) * (3 * m_mu - 4 * E)) with (16 * (E ^ 2 * (1 / (m_mu * m_mu * m_mu * m_mu)) * (3 * m_mu - 4 * E))) by ring.
    apply Rmult_le_pos; [lra|]. apply Rmult_le_pos; [exact Q|lra].
Qed.

(** ** C40: vocabulary and helpers *)

Definition lift_zero (p : R * R) : R * R := (if Req_EM_T (fst p) 0 then tiny else fst p, snd p).

Lemma tiny_pos : 0 < tiny.
Proof. unfold tiny. apply pow_lt. lra. Qed.

Lemma check_points_spec pts s : 
  (Forall (fun p => 0 <= fst p /\ 0 <= snd p) pts /\ check_points pts s = Ok (map lift_zero pts, s + sumR (map snd pts))) \/
  (~ Forall (fun p => 0 <= fst p /\ 0 <= snd p) pts /\ check_points pts s = Er MarleyErr).
Proof.
  revert s. induction pts as [|[x y] r IH]; intros s.
  - left. split; [constructor|]. cbn. rewrite Rplus_0_r. reflexivity.
  - cbn [check_points]. destruct (Rlt_dec x 0) as [L|L]; [right; split; [intros F; apply Forall_inv in F; cbn in F; lra|reflexivity]|].
    cbv zeta. destruct (Rlt_dec y 0) as [M|M]; [right; split; [intros F; apply Forall_inv in F; cbn in F; lra|reflexivity]|].
    destruct (IH (s + y)) as [[F E]|[F E]]; rewrite E; cbn [bind].
    + left. split; [constructor; [cbn; lra|exact F]|]. unfold lift_zero. cbn [map sumR fst snd]. rewrite Rplus_assoc. reflexivity.
    + right. split; [intros G; apply F; exact (Forall_inv_tail G)|reflexivity].
Qed.

(** ** C40: theorems *)

(** Which grids are accepted, and what the source then holds: the same points, with the
    energy zero replaced by the smallest positive double. *)
Theorem C40_accepts pid g :
  (forall s, make_grid_source pid g = Ok s <->
     s = GridSource pid (mkgrid (g_im g) (g_em g) (map lift_zero (g_pts g))) /\
     neutrino pid /\ (2 <= length (g_pts g))%nat /\ Forall (fun p => 0 <= fst p /\ 0 <= snd p) (g_pts g) /\ 0 < sumR (map snd (g_pts g))) /\
  (forall e, make_grid_source pid g = Er e -> e = MarleyErr).
Proof.
  unfold make_grid_source. destruct (check_pid pid) as [[]|e] eqn:P; cbn [bind].
  - apply check_pid_ok in P. destruct (Nat.ltb_spec (length (g_pts g)) 2) as [L|L].
    { split; [intros s; split; [discriminate|]; intros (_ & _ & Q & _); lia|]. intros e H. congruence. }
    destruct (check_points_spec (g_pts g) 0) as [[F E]|[F E]]; rewrite E; cbn [bind].
    + rewrite Rplus_0_l. destruct (Rle_dec (sumR (map snd (g_pts g))) 0) as [S|S].
      * split; [intros s; split; [discriminate|]; intros (_ & _ & _ & _ & Q); lra|]. intros e H. congruence.
      * split; [|discriminate]. intros s. split; [intros H; injection H as <-; repeat split; try assumption; lra|]. intros (-> & _). reflexivity.
    + split; [intros s; split; [discriminate|]; intros (_ & _ & _ & Q & _); contradiction|]. intros e H. congruence.
  - apply check_pid_er in P. destruct P as [-> P]. split; [intros s; split; [discriminate|]; intros (_ & Q & _); contradiction|]. intros e H. congruence.
Qed.
Print Assumptions C40_accepts.

(** An accepted source has two points or more, positive energies, non-negative densities
    and a positive sum of densities. *)
Theorem C40_points pid g s : make_grid_source pid g = Ok s ->
  exists g', s = GridSource pid g' /\ g_im g' = g_im g /\ g_em g' = g_em g /\
    (2 <= length (g_pts g'))%nat /\ length (g_pts g') = length (g_pts g) /\ map snd (g_pts g') = map snd (g_pts g) /\
    Forall (fun p => 0 < fst p /\ 0 <= snd p) (g_pts g') /\ 0 < sumR (map snd (g_pts g')) /\
    (forall i x y, nth_error (g_pts g) i = Some (x, y) -> 0 < x -> nth_error (g_pts g') i = Some (x, y)).
Proof.
  intros H. apply (proj1 (C40_accepts pid g)) in H. destruct H as (-> & HP & HL & HF & HS).
  assert (M : map snd (map lift_zero (g_pts g)) = map snd (g_pts g)) by (rewrite map_map; reflexivity).
  eexists. split; [reflexivity|]. cbn [g_im g_em g_pts]. rewrite map_length, M.
  split; [reflexivity|]. split; [reflexivity|]. split; [exact HL|]. split; [reflexivity|]. split; [reflexivity|]. split; [|split; [exact HS|]].
  - apply Forall_map. revert HF. apply Forall_impl. intros [x y] [A B]. unfold lift_zero. cbn [fst snd] in *. split; [|exact B]. destruct (Req_EM_T x 0); [apply tiny_pos|lra].
  - intros i x y Hi Hx. rewrite nth_error_map, Hi. unfold lift_zero. cbn [option_map fst snd]. destruct (Req_EM_T x 0); [lra|reflexivity].
Qed.
Print Assumptions C40_points.

(** The two-vector constructor also refuses vectors of different lengths. *)
Theorem C40_vectors pid xs ys im s : make_grid_source_xy pid xs ys im = Ok s ->
  length xs = length ys /\ make_grid_source pid (mkgrid im EZero (combine xs ys)) = Ok s.
Proof.
  unfold make_grid_source_xy. intros H. apply with_pid in H. destruct H as [_ H]. unfold make_grid in H.
  destruct (Nat.eqb_spec (length xs) (length ys)) as [E|E]; cbn [negb bind] in H; [|discriminate]. split; assumption.
Qed.
Print Assumptions C40_vectors.

Lemma combine_in_l {A B} (l : list A) (m : list B) p : In p (combine l m) -> In (fst p) l /\ In (snd p) m.
Proof. intros H. destruct p as [a c]. split; [exact (in_combine_l _ _ _ _ H)|exact (in_combine_r _ _ _ _ H)]. Qed.

Lemma lifted_increasing pts : Forall (fun p => 0 <= fst p /\ 0 <= snd p) pts -> increasing pts -> (forall p, In p pts -> fst p = 0 \/ tiny < fst p) -> increasing (map lift_zero pts).
Proof.
  intros HF HI HT i j p q L Hp Hq. rewrite nth_error_map in Hp, Hq.
  destruct (nth_error pts i) as [p0|] eqn:Ei; [|discriminate]. destruct (nth_error pts j) as [q0|] eqn:Ej; [|discriminate].
  cbn [option_map] in Hp, Hq. injection Hp as <-. injection Hq as <-. unfold lift_zero. cbn [fst]. pose proof (HI _ _ _ _ L Ei Ej) as X.
  rewrite Forall_forall in HF. destruct (HF _ (nth_error_In _ _ Ei)) as [X0 _]. destruct (HF _ (nth_error_In _ _ Ej)) as [X1 _].
  destruct (Req_EM_T (fst q0) 0) as [Z|Z]; [lra|]. destruct (HT _ (nth_error_In _ _ Ej)) as [W|W]; [lra|].
  destruct (Req_EM_T (fst p0) 0); lra.
Qed.

(** Inside the grid, every energy lies in a bin. *)
Lemma bin_of pts n x : (S n < length pts)%nat -> x_at pts 0 < x <= x_at pts (S n) -> exists i, (i <= n)%nat /\ x_at pts i < x <= x_at pts (S i).
Proof.
  induction n as [|n IH]; intros L Hx; [exists 0%nat; split; [lia|exact Hx]|].
  destruct (Rlt_dec (x_at pts (S n)) x) as [H|H]; [exists (S n); split; [lia|lra]|].
  destruct (IH ltac:(lia) ltac:(lra)) as (i & Hi & B). exists i. split; [lia|exact B].
Qed.

(** The density of an increasing grid with non-negative values. *)
Lemma grid_density g : increasing (g_pts g) -> usable (g_im g) (g_pts g) -> (2 <= length (g_pts g))%nat -> g_em g = EZero ->
  Forall (fun p => 0 <= snd p) (g_pts g) ->
  exists lo hi, grid_front g = Ok lo /\ grid_back g = Ok hi /\ fst lo < fst hi /\
    (forall E, E < fst lo \/ fst hi < E -> interpolate g E = Ok (Fin 0)) /\
    (forall E, fst lo <= E <= fst hi -> exists v, 0 <= v /\ interpolate g E = Ok (Fin v)).
Proof.
  intros HI HU HL HE HF. rewrite Forall_forall in HF. set (pts := g_pts g) in *. set (n := length pts) in *.
  assert (A : forall i, (i < n)%nat -> nth_error pts i = Some (nth i pts (0, 0))) by (intros i Hi; apply nth_error_nth'; exact Hi).
  exists (nth 0 pts (0, 0)), (nth (n - 1) pts (0, 0)).
  assert (Ffront : grid_front g = Ok (nth 0 pts (0, 0))) by (unfold grid_front; fold pts; destruct pts; [cbn in HL; lia|reflexivity]).
  assert (Fback : grid_back g = Ok (nth (n - 1) pts (0, 0))).
  { unfold grid_back. fold pts. destruct (rev pts) as [|p r] eqn:E; [apply (f_equal (@length _)) in E; rewrite rev_length in E; cbn in E; fold n in E; lia|].
    f_equal. replace (nth (n - 1) pts (0, 0)) with (nth 0 (rev pts) (0, 0)); [rewrite E; reflexivity|]. rewrite rev_nth by (fold n; lia). fold n. f_equal. }
  split; [exact Ffront|]. split; [exact Fback|]. split; [apply (HI 0%nat (n - 1)%nat); [lia|apply A; lia|apply A; lia]|]. split.
  - intros E H. pose proof (C38_outside g E _ _ _ _ HI (A 0%nat ltac:(lia)) (A 1%nat ltac:(lia)) (A (n - 2)%nat ltac:(lia)) (A (n - 1)%nat ltac:(lia)) H) as P.
    rewrite HE in P. exact P.
  - intros E H. destruct (Rle_lt_or_eq_dec _ _ (proj1 H)) as [LT|EQ].
    + destruct (bin_of pts (n - 2) E ltac:(fold n; lia)) as (i & Hi & B); [replace (S (n - 2)) with (n - 1)%nat by lia; unfold x_at; lra|].
      destruct (C38_between g i _ _ E HI HU (A i ltac:(lia)) (A (S i) ltac:(lia)) B) as [V [W _]]. eexists. split; [|exact V].
      eapply Rle_trans; [|exact W]. apply Rmin_glb; apply HF; apply nth_In; fold n; lia.
    + exists (snd (nth 0 pts (0, 0))). split; [apply HF, nth_In; fold n; lia|]. rewrite <- EQ. apply (first_value g _ (nth 1 pts (0, 0)) HI); [apply A; lia|apply A; lia|exact HU].
Qed.

(** An increasing table gives a density that vanishes outside the positive energies
    tabulated and is finite and non-negative inside; with the rules that take the logarithm
    of the density, the tabulated densities must be positive for that. *)
Theorem C40_density pid xs ys im s : make_grid_source_xy pid xs ys im = Ok s ->
  increasing (combine xs ys) -> (forall x, In x xs -> x = 0 \/ tiny < x) -> (im = ILogLin \/ im = ILogLog -> forall y, In y ys -> 0 < y) ->
  exists lo hi, source_Emin s = Ok lo /\ source_Emax s = Ok hi /\ 0 < lo < hi /\
    (forall E, E < lo \/ hi < E -> pdf s E = Ok (Fin 0)) /\
    (forall E, lo <= E <= hi -> exists v, 0 <= v /\ pdf s E = Ok (Fin v)).
Proof.
  intros H HI HT HY. apply C40_vectors in H. destruct H as [HLen H]. pose proof (C40_points _ _ _ H) as (g' & Es & Eim & Eem & HL & _ & Esnd & HF & _ & _).
  apply (proj1 (C40_accepts _ _)) in H. cbn [g_im g_em g_pts] in *. destruct H as (E' & HP & HL0 & HF0 & HS).
  assert (Eg : g' = mkgrid im EZero (map lift_zero (combine xs ys))) by congruence.
  assert (I' : increasing (g_pts g')). { rewrite Eg. apply lifted_increasing; [exact HF0|exact HI|]. intros p Hp. apply HT. apply (combine_in_l _ _ _ Hp). }
  assert (U' : usable (g_im g') (g_pts g')).
  { split; intros Hm.
    - revert HF. apply Forall_impl. intros p Hp. apply Hp.
    - rewrite Eim in Hm. apply Forall_forall. intros p Hp. assert (Hs : In (snd p) (map snd (g_pts g'))) by (apply in_map; exact Hp). rewrite Esnd in Hs.
      apply in_map_iff in Hs. destruct Hs as (q & Eq & Hq). rewrite <- Eq. apply (HY Hm). apply (combine_in_l _ _ _ Hq). }
  destruct (grid_density g' I' U' HL Eem) as (lo & hi & F1 & F2 & HLT & O & V); [revert HF; apply Forall_impl; tauto|].
  exists (fst lo), (fst hi). rewrite Es. cbn [source_Emin source_Emax pdf]. rewrite F1, F2. cbn [bind]. split; [reflexivity|]. split; [reflexivity|].
  split; [split; [|exact HLT]|split; [exact O|exact V]]. unfold grid_front in F1. destruct (g_pts g') as [|p r]; [discriminate|]. injection F1 as <-. apply Forall_inv in HF. tauto.
Qed.
Print Assumptions C40_density.

Lemma two_pos a c : increasing [a; c] <-> fst a < fst c.
Proof.
  split; [intros H; exact (H 0%nat 1%nat a c ltac:(lia) eq_refl eq_refl)|].
  intros H i j p q L Hp Hq. destruct i as [|[|i]]; [|destruct j as [|[|[|j]]]; cbn in Hq; try discriminate; lia|destruct i; discriminate].
  destruct j as [|[|j]]; [lia| |destruct j; discriminate]. cbn in Hp, Hq. injection Hp as <-. injection Hq as <-. exact H.
Qed.

(** The checks do not look at the order of the energies. *)
Theorem C40_unsorted_refuted : ~ (forall pid xs ys im s lo hi, make_grid_source_xy pid xs ys im = Ok s -> source_Emin s = Ok lo -> source_Emax s = Ok hi -> lo <= hi).
Proof.
  intros H. destruct (C40_accepts 12 (mkgrid ILinLin EZero [(2, 1); (1, 1)])) as [A _].
  assert (B : make_grid_source_xy 12 [2; 1] [1; 1] ILinLin = Ok (GridSource 12 (mkgrid ILinLin EZero (map lift_zero [(2, 1); (1, 1)])))).
  { apply A. cbn [g_pts g_im g_em map sumR snd length]. split; [reflexivity|]. split; [left; reflexivity|]. split; [lia|]. split; [|lra]. repeat constructor; cbn; lra. }
  pose proof (H _ _ _ _ _ 2 1 B) as C. assert (2 <= 1); [|lra]. apply C.
  - unfold lift_zero; cbn [source_Emin grid_front g_pts map bind fst]. destruct (Req_EM_T 2 0); [lra|reflexivity].
  - unfold lift_zero; cbn [source_Emax grid_back g_pts map rev app bind fst]. destruct (Req_EM_T 1 0); [lra|reflexivity].
Qed.
Print Assumptions C40_unsorted_refuted.

(** With a rule that takes the logarithm of the density, a table that starts with a zero
    density is accepted and its density is NaN in the first bin. *)
Theorem C40_log_zero_refuted : ~ (forall pid xs ys im s E, make_grid_source_xy pid xs ys im = Ok s -> increasing (combine xs ys) -> exists v, pdf s E = Ok (Fin v)).
Proof.
  intros H. destruct (C40_accepts 12 (mkgrid ILogLin EZero [(1, 0); (3, 1)])) as [A _].
  assert (B : make_grid_source_xy 12 [1; 3] [0; 1] ILogLin = Ok (GridSource 12 (mkgrid ILogLin EZero (map lift_zero [(1, 0); (3, 1)])))).
  { apply A. cbn [g_pts g_im g_em map sumR snd length]. split; [reflexivity|]. split; [left; reflexivity|]. split; [lia|]. split; [|lra]. repeat constructor; cbn; lra. }
  assert (I : increasing [(1, 0); (3, 1)]) by (apply two_pos; cbn; lra).
  destruct (H _ _ _ _ _ 2 B I) as [v E]. unfold lift_zero in E; cbn [pdf map fst snd] in E.
  destruct (Req_EM_T 1 0); [lra|]. destruct (Req_EM_T 3 0); [lra|]. unfold interpolate in E.
  assert (F : find_bin_limits (mkgrid ILogLin EZero [(1, 0); (3, 1)]) 2 = Ok (false, 0%nat, 1%nat)).
  { unfold find_bin_limits. cbn [g_pts]. rewrite (lower_bound_is [(1, 0); (3, 1)] 2 1 I); [reflexivity|cbn; lia|unfold x_at; cbn; lra|right; unfold x_at; cbn; lra]. }
  rewrite F in E. cbn [bind g_im g_pts x_at y_at nth fst snd bin_value uses_log_x uses_log_y] in E.
  unfold x_at, y_at in E. cbn [nth fst snd xlog] in E. destruct (Rlt_dec 0 0); [lra|]. destruct (Req_EM_T 0 0); [|lra]. destruct (Rlt_dec 0 1); [|lra].
  cbn [xopp xsub xadd negb] in E. unfold xdiv, xsub, xopp, xadd in E. destruct (Rlt_dec (3 + - (1)) 0); [lra|]. cbn [xmul negb xorb] in E. unfold inf_times in E.
  destruct (Rlt_dec 0 (2 + - (1))); [|lra]. cbn in E. discriminate.
Qed.
Print Assumptions C40_log_zero_refuted.

(** ** C39: theorems *)

(** Every constructor refuses a code that is not one of the six neutrinos with the same
    error, and what it accepts has the code asked for; stopped muons give no tau
    neutrinos. *)
Theorem C39_pids pid :
  let constructors := fun r : res source =>
    (exists E, r = make_mono pid E) \/ (exists lo hi T eta, r = make_fermi pid lo hi T eta) \/ (exists lo hi Em beta, r = make_beta pid lo hi Em beta) \/
    (exists lo hi f, r = make_function pid lo hi f) \/ r = make_dar pid \/ (exists g, r = make_grid_source pid g) \/ (exists xs ys im, r = make_grid_source_xy pid xs ys im) in
  (forall r, constructors r -> ~ neutrino pid -> r = Er MarleyErr) /\
  (forall s, constructors (Ok s) -> neutrino pid /\ source_pid s = pid) /\
  (neutrino pid -> (forall E, exists s, make_mono pid E = Ok s) /\ (forall lo hi T eta, exists s, make_fermi pid lo hi T eta = Ok s) /\
    (forall lo hi f, exists s, make_function pid lo hi f = Ok s) /\
    (forall lo hi Em beta, (exists s, make_beta pid lo hi Em beta = Ok s) <-> 1 <= beta) /\
    ((exists s, make_dar pid = Ok s) <-> (pid <> 16 /\ pid <> -16)%Z)).
Proof.
  cbv zeta. split; [|split].
  - intros r Hr NP. assert (P : check_pid pid = Er MarleyErr).
    { destruct (check_pid pid) as [[]|e] eqn:E; [exfalso; apply NP, check_pid_ok, E|]. apply check_pid_er in E. destruct E as [-> _]. reflexivity. }
    destruct Hr as [[E ->]|[(lo & hi & T & eta & ->)|[(lo & hi & Em & beta & ->)|[(lo & hi & f & ->)|[->|[(g & ->)|(xs & ys & im & ->)]]]]]];
    unfold make_mono, make_fermi, make_beta, make_function, make_dar, make_grid_source, make_grid_source_xy; rewrite P; reflexivity.
  - intros s Hs. destruct Hs as [[E H]|[(lo & hi & T & eta & H)|[(lo & hi & Em & beta & H)|[(lo & hi & f & H)|[H|[(g & H)|(xs & ys & im & H)]]]]]]; symmetry in H;
    pose proof H as H'; apply with_pid in H'; destruct H' as [NP H']; (split; [exact NP|]).
    + injection H' as <-. reflexivity.
    + injection H' as <-. reflexivity.
    + destruct (Rlt_dec beta 1); [discriminate|]. injection H' as <-. reflexivity.
    + injection H' as <-. reflexivity.
    + destruct (negb (Z.abs pid =? 12)%Z && negb (Z.abs pid =? 14)%Z); [discriminate|]. injection H' as <-. reflexivity.
    + apply (proj1 (C40_accepts _ _)) in H. destruct H as [-> _]. reflexivity.
    + apply C40_vectors in H. destruct H as [_ H]. apply (proj1 (C40_accepts _ _)) in H. destruct H as [-> _]. reflexivity.
  - intros HP. pose proof HP as HC. apply check_pid_ok in HC. unfold make_mono, make_fermi, make_beta, make_function, make_dar. rewrite HC. cbn [bind].
    split; [intros; eexists; reflexivity|]. split; [intros; eexists; reflexivity|]. split; [intros; eexists; reflexivity|]. split.
    + intros lo hi Em beta. destruct (Rlt_dec beta 1) as [L|L]; split; [intros [s H]; discriminate|lra|lra|intros _; eexists; reflexivity].
    + destruct HP as [->|[->|[->|[->|[->| ->]]]]]; cbn; (split; [intros [s H]; try discriminate; split; lia|intros [A B]; try (eexists; reflexivity); contradiction]).
Qed.
Print Assumptions C39_pids.

(** The density vanishes outside the range and is finite and non-negative inside. *)
Theorem C39_density s : proper s -> exists lo hi, source_Emin s = Ok lo /\ source_Emax s = Ok hi /\ lo <= hi /\
  (forall E, E < lo \/ hi < E -> pdf s E = Ok (Fin 0)) /\
  (forall E, lo <= E <= hi -> exists v, 0 <= v /\ pdf s E = Ok (Fin v)).
Proof.
  intros [pid E s' H|pid lo hi T eta s' Hl HT H|pid lo hi Em beta s' Hl HT H|pid lo hi f s' Hl Hf Hf' H|pid s' H|pid im xs ys s' HI HT HY H].
  - apply with_pid in H. destruct H as [_ H]. injection H as <-. exists E, E. split; [reflexivity|]. split; [reflexivity|]. split; [lra|]. cbn [pdf]. split.
    + intros E' HE. destruct (Req_EM_T E E'); [lra|reflexivity].
    + intros E' HE. destruct (Req_EM_T E E'); [|lra]. exists 1. split; [lra|reflexivity].
  - apply with_pid in H. destruct H as [_ H]. injection H as <-. exists lo, hi. split; [reflexivity|]. split; [reflexivity|]. split; [lra|]. cbn [pdf]. split.
    + intros E HE. unfold fermi_pdf. rewrite within_out by exact HE. reflexivity.
    + intros E HE. eexists. split; [|reflexivity]. rewrite fermi_scaled. pose proof (fermi_integral lo hi T eta Hl HT) as P.
      apply Rmult_le_pos; [apply Rlt_le, Rdiv_lt_0_compat; lra|]. unfold fermi_pdf. rewrite within_in by exact HE.
      pose proof (exp_pos (E / T - eta)). apply Rmult_le_pos; [apply Rlt_le, Rdiv_lt_0_compat; [lra|apply pow_lt, HT]|]. apply Rmult_le_pos; [nra|apply Rlt_le, Rinv_0_lt_compat; lra].
  - apply with_pid in H. destruct H as [_ H]. destruct (Rlt_dec beta 1) as [L|L]; [discriminate|]. injection H as <-.
    exists lo, hi. split; [reflexivity|]. split; [reflexivity|]. split; [lra|]. cbn [pdf]. split.
    + intros E HE. unfold beta_pdf. rewrite within_out by exact HE. reflexivity.
    + intros E HE. eexists. split; [|reflexivity]. pose proof (beta_integral lo hi Em beta Hl HT ltac:(lra)) as P. rewrite beta_shape by lra.
      apply Rmult_le_pos; [|apply Rlt_le, exp_pos]. apply Rmult_le_pos; [apply Rlt_le, Rdiv_lt_0_compat; lra|apply cpow_nonneg].
  - apply with_pid in H. destruct H as [_ H]. injection H as <-. exists lo, hi. split; [reflexivity|]. split; [reflexivity|]. split; [lra|]. cbn [pdf]. split.
    + intros E HE. rewrite within_out by exact HE. reflexivity.
    + intros E HE. eexists. split; [|reflexivity]. rewrite within_in by exact HE. pose proof (integral_pos f lo hi Hl Hf Hf') as P.
      apply Rmult_le_pos; [apply Hf, HE|apply Rlt_le, Rinv_0_lt_compat, P].
  - apply with_pid in H. destruct H as [_ H]. destruct (negb (Z.abs pid =? 12)%Z && negb (Z.abs pid =? 14)%Z); [discriminate|]. injection H as <-.
    exists 0, dar_max. split; [reflexivity|]. split; [reflexivity|]. pose proof m_mu_pos. split; [unfold dar_max; lra|]. cbn [pdf]. split.
    + intros E HE. unfold dar_pdf. rewrite within_out by exact HE. reflexivity.
    + intros E HE. eexists. split; [|reflexivity]. apply dar_nonneg, HE.
  - destruct (C40_density _ _ _ _ _ H HI HT HY) as (lo & hi & A & B & C & D & F). exists lo, hi. repeat split; try assumption; lra.
Qed.
Print Assumptions C39_density.

(** Inside the range the densities have the documented shapes, up to a positive constant
    which the integrator makes them integrate to one with. *)
Theorem C39_shape pid lo hi s : 0 <= lo < hi ->
  (forall T eta, 0 < T -> make_fermi pid lo hi T eta = Ok s ->
     exists C f, 0 < C /\ (forall E, pdf s E = Ok (Fin (f E))) /\ utils_integrate f lo hi = 1 /\
       forall E, lo <= E <= hi -> f E = C * (E ^ 2 / (1 + exp (E / T - eta)))) /\
  (forall Em beta, 0 < Em -> make_beta pid lo hi Em beta = Ok s ->
     exists C f, 0 < C /\ (forall E, pdf s E = Ok (Fin (f E))) /\ utils_integrate f lo hi = 1 /\
       forall E, lo <= E <= hi -> 0 < E -> f E = C * (Rpower (E / Em) (beta - 1) * exp (- beta * E / Em))) /\
  (forall g, 0 < utils_integrate g lo hi -> make_function pid lo hi g = Ok s ->
     exists C f, 0 < C /\ (forall E, pdf s E = Ok (Fin (f E))) /\ utils_integrate f lo hi = 1 /\ forall E, lo <= E <= hi -> f E = C * g E).
Proof.
  intros Hl. split; [|split].
  - intros T eta HT H. apply with_pid in H. destruct H as [_ H]. injection H as <-. pose proof (fermi_integral lo hi T eta Hl HT) as P.
    set (I := utils_integrate (fermi_pdf lo hi T eta 1) lo hi) in *. exists (1 / I / T ^ 4), (fermi_pdf lo hi T eta (1 / I)).
    split; [apply Rdiv_lt_0_compat; [apply Rdiv_lt_0_compat; lra|apply pow_lt, HT]|]. split; [intros; reflexivity|]. split.
    + rewrite (integral_scaled (fermi_pdf lo hi T eta 1) _ (1 / I)); [fold I; field; lra|lra|]. intros x _. apply fermi_scaled.
    + intros E HE. unfold fermi_pdf. rewrite within_in by exact HE. reflexivity.
  - intros Em beta HT H. apply with_pid in H. destruct H as [_ H]. destruct (Rlt_dec beta 1) as [L|L]; [discriminate|]. injection H as <-.
    pose proof (beta_integral lo hi Em beta Hl HT ltac:(lra)) as P. set (I := utils_integrate (beta_pdf lo hi Em beta 1) lo hi) in *. exists (1 / I), (beta_pdf lo hi Em beta (1 / I)).
    split; [apply Rdiv_lt_0_compat; lra|]. split; [intros; reflexivity|]. split.
    + rewrite (integral_scaled (beta_pdf lo hi Em beta 1) _ (1 / I)); [fold I; field; lra|lra|]. intros x _. apply beta_scaled.
    + intros E HE H0. rewrite beta_shape by lra. unfold cpow. assert (Q : 0 < E / Em) by (apply Rdiv_lt_0_compat; lra). destruct (Rlt_dec 0 (E / Em)); [ring|lra].
  - intros g P H. apply with_pid in H. destruct H as [_ H]. injection H as <-. set (I := utils_integrate g lo hi) in *. exists (1 / I), (fun E => within lo hi E (g E / I)).
    split; [apply Rdiv_lt_0_compat; lra|]. split; [intros; reflexivity|]. split.
    + rewrite (integral_scaled g _ (1 / I)); [fold I; field; lra|lra|]. intros x Hx. rewrite within_in by exact Hx. unfold Rdiv. ring.
    + intros E HE. rewrite within_in by exact HE. unfold Rdiv. ring.
Qed.
Print Assumptions C39_shape.

(** The spectra of muons decaying at rest integrate to one over their range, exactly, and
    so does the integrator used. *)
Lemma dar_poly pid E : 0 <= E <= dar_max -> dar_pdf pid E = poly (if Z.eqb (Z.abs pid) 12 then [0; 0; 96 / m_mu ^ 3; - 192 / m_mu ^ 4] else [0; 0; 48 / m_mu ^ 3; - 64 / m_mu ^ 4]) E.
Proof.
  intros HE. unfold dar_pdf. rewrite within_in by exact HE. pose proof m_mu_pos as HM. destruct (Z.eqb (Z.abs pid) 12); cbn [poly]; field; lra.
Qed.

Theorem C39_muon_normalised pid s : make_dar pid = Ok s ->
  exists f, (forall E, pdf s E = Ok (Fin (f E))) /\ utils_integrate f 0 (m_mu / 2) = 1 /\
    exists pr : Riemann_integrable f 0 (m_mu / 2), RiemannInt pr = 1.
Proof.
  intros H. apply with_pid in H. destruct H as [_ H]. destruct (negb (Z.abs pid =? 12)%Z && negb (Z.abs pid =? 14)%Z); [discriminate|]. injection H as <-.
  pose proof m_mu_pos as HM. exists (dar_pdf pid). split; [intros; reflexivity|]. fold dar_max.
  set (cs := if Z.eqb (Z.abs pid) 12 then [0; 0; 96 / m_mu ^ 3; - 192 / m_mu ^ 4] else [0; 0; 48 / m_mu ^ 3; - 64 / m_mu ^ 4]).
  set (a2 := if Z.eqb (Z.abs pid) 12 then 32 / m_mu ^ 3 else 16 / m_mu ^ 3). set (a3 := if Z.eqb (Z.abs pid) 12 then - 48 / m_mu ^ 4 else - 16 / m_mu ^ 4).
  assert (HL : (length cs <= 2 * 50 + 2)%nat) by (unfold cs; destruct (Z.eqb (Z.abs pid) 12); cbn [length]; lia).
  destruct (C61_exact 50 cs 0 dar_max ltac:(lia) HL) as [EX RI].
  assert (V : num_integrate 50 (poly cs) 0 dar_max = 1).
  { rewrite (EX (fun x => a2 * x ^ 3 + a3 * x ^ 4)).
    - unfold dar_max, a2, a3. destruct (Z.eqb (Z.abs pid) 12); field; lra.
    - intros x. replace (poly cs x) with (a2 * (INR 3 * x ^ 2) + a3 * (INR 4 * x ^ 3)).
      + apply (derivable_pt_lim_plus (fun x => a2 * x ^ 3) (fun x => a3 * x ^ 4)); [apply (derivable_pt_lim_scal (fun x => x ^ 3)), (derivable_pt_lim_pow x 3)|apply (derivable_pt_lim_scal (fun x => x ^ 4)), (derivable_pt_lim_pow x 4)].
      + unfold cs, a2, a3. destruct (Z.eqb (Z.abs pid) 12); cbn [poly INR]; field; lra. }
  assert (HD : 0 <= dar_max) by (unfold dar_max; lra).
  split; [unfold utils_integrate; rewrite (C61_inside 50 _ (poly cs) 0 dar_max HD); [exact V|intros x Hx; apply dar_poly, Hx]|].
  assert (PC : continuity (poly cs)).
  { clear. induction cs as [|c r IH]; cbn [poly]; [apply continuity_const; intros x y; reflexivity|].
    apply (continuity_plus (fun _ => c) (fun x => x * poly r x)); [apply continuity_const; intros x y; reflexivity|].
    apply (continuity_mult (fun x => x) (poly r)); [apply derivable_continuous, derivable_id|exact IH]. }
  assert (prp : Riemann_integrable (poly cs) 0 dar_max) by (apply continuity_implies_RiemannInt; [exact HD|intros x _; apply PC]).
  assert (prd : Riemann_integrable (dar_pdf pid) 0 dar_max).
  { apply Riemann_integrable_ext with (f := poly cs); [|exact prp]. intros x Hx. symmetry. rewrite Rmin_left, Rmax_right in Hx by exact HD. apply dar_poly, Hx. }
  exists prd. rewrite <- V, (RI HD prp). apply RiemannInt_P18; [exact HD|]. intros x Hx. apply dar_poly. lra.
Qed.
Print Assumptions C39_muon_normalised.

(** Cases: a stopped muon source; and a table of three points starting at zero energy. *)
Example C39_case : exists s, make_dar (-14) = Ok s /\ proper s /\ source_pid s = (-14)%Z.
Proof.
  exists (DecayAtRest (-14)). assert (H : make_dar (-14) = Ok (DecayAtRest (-14))) by reflexivity.
  split; [exact H|]. split; [exact (proper_dar _ _ H)|reflexivity].
Qed.

Example C39_case_fermi : exists s, make_fermi 12 0 50 (7 / 2) 0 = Ok s /\ proper s.
Proof.
  destruct (C39_pids 12) as (_ & _ & A). destruct (A (or_introl eq_refl)) as (_ & F & _). destruct (F 0 50 (7 / 2) 0) as [s E].
  exists s. split; [exact E|]. apply (proper_fermi 12 0 50 (7 / 2) 0); [lra|lra|exact E].
Qed.

Example C40_case : exists s, make_grid_source_xy 12 [0; 5] [1; 0] ILinLin = Ok s /\ proper s.
Proof.
  destruct (C40_accepts 12 (mkgrid ILinLin EZero [(0, 1); (5, 0)])) as [A _].
  exists (GridSource 12 (mkgrid ILinLin EZero (map lift_zero [(0, 1); (5, 0)]))).
  assert (B : make_grid_source_xy 12 [0; 5] [1; 0] ILinLin = Ok (GridSource 12 (mkgrid ILinLin EZero (map lift_zero [(0, 1); (5, 0)])))).
  { apply A. cbn [g_pts g_im g_em map sumR snd length]. split; [reflexivity|]. split; [left; reflexivity|]. split; [lia|]. split; [|lra]. repeat constructor; cbn; lra. }
  split; [exact B|]. apply (proper_grid 12 ILinLin [0; 5] [1; 0]); [apply two_pos; cbn; lra| |intros [H|H]; discriminate|exact B].
  assert (T1 : tiny <= 1). { unfold tiny. rewrite <- (pow1 1074). apply pow_incr. lra. }
  intros x [<-|[<-|[]]]; [left; reflexivity|right; lra].
Qed.
