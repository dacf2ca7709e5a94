(** Exit channels, their widths and the choice among them (C65). *)
From Coq Require Import List ZArith Reals Lra Lia Bool Permutation.
From Verif Require Import Base Pdg PdgThms Kin Sample SampleProofs SampleThms Mass MassThms Decay DecaySpec DecayProofs ChannelProofs SelectThms.
Import ListNotations.
Local Open Scope R_scope.

(** ** What is expected *)

(** S is the sum of [f] over the things, finitely many, that satisfy [P]. *)
Definition sum_over {A} (P : A -> Prop) (f : A -> R) (S : R) : Prop :=
  exists l, NoDup l /\ (forall x, In x l <-> P x) /\ S = sumR (map f l).

(** The nucleus left after emission of [fr] (None is a gamma) from the nucleus [c]. *)
Definition left_over (c : comp) (fr : option (Z * Z * bool)) : Z :=
  match fr with
  | None => c_pdg c
  | Some (f, _, _) => nucleus_pid (particle_Z (c_pdg c) - particle_Z f) (particle_A (c_pdg c) - particle_A f)
  end.

(** The particle can be emitted, leaving at most the excitation energy [top]. *)
Definition open_to (v : env) (c : comp) (fr : option (Z * Z * bool)) (top : R) : Prop :=
  match fr with
  | None => top = c_Ex c
  | Some (f, s, Pa) =>
      In (f, (s, Pa)) (v_frags v) /\
      (measured (v_mt v) (particle_Z (c_pdg c)) (particle_A (c_pdg c)) \/ (0 < particle_A (c_pdg c))%Z) /\
      (measured (v_mt v) (particle_Z (c_pdg c) - particle_Z f) (particle_A (c_pdg c) - particle_A f) \/
       (0 < particle_A (c_pdg c) - particle_A f)%Z) /\
      (exists S, separation (v_mt v) (c_pdg c) f true = Ok S /\ top = c_Ex c - S) /\ 0 < top
  end.

(** The energy above which a nucleus counts as being in the continuum. *)
Definition continuum_from (ds : option rscheme) (E0 : R) : Prop :=
  match ds with
  | Some s =>
      (s_levels s = [] /\ E0 = 0) \/
      ((exists lev, In lev (s_levels s) /\ rl_E lev = E0) /\ forall lev, In lev (s_levels s) -> rl_E lev <= E0)
  | None => E0 = 0
  end.

(** Where a decay can lead. *)
Definition destination (v : env) (c : comp) (fr : option (Z * Z * bool)) (d : dest) : Prop :=
  exists top, open_to v c fr top /\
  match d with
  | ToLevel lev => exists ds, v_scheme v (left_over c fr) = Some ds /\ In lev (s_levels ds) /\ rl_E lev < top
  | ToContinuum E0 => continuum_from (v_scheme v (left_over c fr)) E0 /\ E0 < top
  end.

(** 2 pi times the level density of the decaying nucleus. *)
Definition unit_of_width (v : env) (c : comp) : R := 2 * PI * v_rho v (c_pdg c) (c_Ex c) (c_twoJ c) (c_par c).

(** The width of the decay to a level: the sum of the transmission coefficients of the
    partial waves, or multipoles, that conserve angular momentum and parity. *)
Definition width_to_level (v : env) (c : comp) (fr : option (Z * Z * bool)) (top : R) (lev : rlevel) (w : R) : Prop :=
  match fr with
  | None => sum_over (gamma_allowed (c_twoJ c) (rl_twoJ lev))
      (fun m => v_TX v (c_pdg c) (Z.eqb (sign (c_par c)) (sign (rl_par lev) * minus_one_to m)) m (top - rl_E lev) / unit_of_width v c) w
  | Some (f, s, Pa) => sum_over (fun p => fragment_allowed (c_twoJ c) (c_par c) (rl_twoJ lev) (rl_par lev) s Pa (fst p) (snd p))
      (fun p => v_T v (left_over c fr) (top - rl_E lev) f (fst p) (snd p) s / unit_of_width v c) w
  end.

(** The decays to states of excitation energy [E] in the continuum: final spins, parities
    and weights, one entry for each partial wave or multipole up to the maximum. *)
Definition continuum_states (v : env) (c : comp) (fr : option (Z * Z * bool)) (top E : R) (rows : list (Z * bool * R)) : Prop :=
  match fr with
  | None => exists ts, NoDup ts /\ (forall m Jf Pf, In (m, Jf, Pf) ts <-> (m <= v_glmax v)%Z /\ gamma_allowed (c_twoJ c) Jf m) /\
      rows = map (fun '(m, Jf, Pf) => (Jf, Pf,
        v_TX v (c_pdg c) (Z.eqb (sign (c_par c)) (sign Pf * minus_one_to m)) m (top - E) * v_rho v (c_pdg c) E Jf Pf / unit_of_width v c)) ts
  | Some (f, s, Pa) => exists ts, NoDup ts /\
      (forall l two_j Jf Pf, In (l, two_j, Jf, Pf) ts <->
         (0 <= l <= v_flmax v)%Z /\ fragment_allowed (c_twoJ c) (c_par c) Jf Pf s Pa two_j l) /\
      rows = map (fun '(l, two_j, Jf, Pf) => (Jf, Pf,
        v_T v (left_over c fr) (top - E) f two_j l s * v_rho v (left_over c fr) E Jf Pf / unit_of_width v c)) ts
  end.
Definition weight (row : Z * bool * R) : R := snd row.

Definition width_of (v : env) (c : comp) (fr : option (Z * Z * bool)) (d : dest) (w : R) : Prop :=
  exists top, open_to v c fr top /\
  match d with
  | ToLevel lev => width_to_level v c fr top lev w
  | ToContinuum E0 => exists g, w = v_integrate v g E0 top /\
      forall E, E0 <= E <= top -> exists rows, continuum_states v c fr top E rows /\ g E = sumR (map weight rows)
  end.

(** ** Proofs *)

Lemma sumR_perm l l' : Permutation l l' -> sumR l = sumR l'.
Proof. induction 1; cbn [sumR]; lra. Qed.

Lemma inverse_transform_range F lo hi tol prob fuel x : lo <= hi -> inverse_transform F lo hi tol prob fuel = Ok x -> lo <= x <= hi.
Proof.
  intros L EI. unfold inverse_transform in EI. destruct (Req_EM_T _ 0); [injection EI as <-; lra|]. destruct (Req_EM_T _ 1); [injection EI as <-; lra|].
  apply bisect_spec in EI; lra.
Qed.

(** A sum over a finite set has one value. *)
Theorem C65_sum_unique {A} (P : A -> Prop) f S S' : sum_over P f S -> sum_over P f S' -> S = S'.
Proof.
  intros (l & N & I & ->) (l' & N' & I' & ->). apply sumR_perm, Permutation_map, NoDup_Permutation; try assumption.
  intros x. rewrite I, I'. reflexivity.
Qed.
Print Assumptions C65_sum_unique.

Lemma electric_eqb Pi m Pf : is_electric Pi m Pf = Z.eqb (sign Pi) (sign Pf * minus_one_to m).
Proof. apply eq_true_iff_eq. rewrite electric_iff, Z.eqb_eq. reflexivity. Qed.

Lemma open_top v c fr top : top_of v c fr top -> open_to v c fr top.
Proof.
  destruct fr as [[[f s] Pa]|]; cbn [top_of open_to]; [|intros H; exact H]. intros (H1 & H2 & H3 & H4).
  unfold nan_separation in H4. apply orb_false_iff in H4. destruct H4 as [N1 N2].
  assert (NM : forall Z0 A0, nan_mass (v_mt v) Z0 A0 = false -> measured (v_mt v) Z0 A0 \/ (0 < A0)%Z).
  { intros Z0 A0. unfold nan_mass, measured. destruct (assoc _ _); [intros _; left; discriminate|]. rewrite Z.leb_gt. intros ?; right; assumption. }
  split; [exact H1|]. split; [apply NM; exact N1|]. split; [apply NM; exact N2|]. split; [|exact H3].
  unfold max_Exf in H2. destruct (separation _ _ f true) as [S|]; cbn [bind] in H2; [|discriminate]. exists S. split; [reflexivity|]. congruence.
Qed.

Lemma top_open v c fr top : open_to v c fr top -> top_of v c fr top.
Proof.
  destruct fr as [[[f s] Pa]|]; cbn [top_of open_to]; [|intros H; exact H]. intros (H1 & W1 & W2 & (S & ES & ->) & H3).
  split; [exact H1|]. unfold max_Exf. rewrite ES. cbn [bind]. split; [reflexivity|]. split; [exact H3|].
  unfold nan_separation, nan_mass. apply orb_false_iff. unfold measured in *. split.
  - destruct (assoc (nucleus_pid _ _) _); [reflexivity|]. destruct W1 as [C|W1]; [exfalso; apply C; reflexivity|]. apply Z.leb_gt. exact W1.
  - destruct (assoc (nucleus_pid (_ - _) _) _); [reflexivity|]. destruct W2 as [C|W2]; [exfalso; apply C; reflexivity|]. apply Z.leb_gt. exact W2.
Qed.

Lemma left_final c x : final_pdg c x = left_over c (x_frag x).
Proof. unfold final_pdg, left_over, fragment_final. destruct (x_frag x) as [[[f s] Pa]|]; reflexivity. Qed.

Lemma floor_from ds : (forall s, ds = Some s -> levels_sorted (s_levels s)) -> continuum_from ds (continuum_floor ds).
Proof.
  intros Hs. destruct ds as [s|]; [|reflexivity]. cbn [continuum_from continuum_floor]. specialize (Hs s eq_refl).
  destruct (rev (s_levels s)) as [|lev r] eqn:E.
  - left. split; [|reflexivity]. rewrite <- (rev_involutive (s_levels s)), E. reflexivity.
  - right. assert (EL : s_levels s = rev r ++ [lev]) by (rewrite <- (rev_involutive (s_levels s)), E; reflexivity).
    split; [exists lev; split; [rewrite EL; apply in_or_app; right; left; reflexivity|reflexivity]|].
    intros l Hl. apply In_nth_error in Hl. destruct Hl as [i Hi].
    assert (Hn : nth_error (s_levels s) (length (rev r)) = Some lev) by (rewrite EL, nth_error_app2, Nat.sub_diag by lia; reflexivity).
    apply (Hs i (length (rev r)) l lev); try assumption.
    assert (i < length (s_levels s))%nat by (apply nth_error_Some; congruence). rewrite EL, app_length in H. cbn [length] in H. lia.
Qed.

Lemma from_floor ds E : (forall s, ds = Some s -> levels_sorted (s_levels s)) -> continuum_from ds E -> E = continuum_floor ds.
Proof.
  intros Hs H. pose proof (floor_from ds Hs) as F. destruct ds as [s|]; cbn [continuum_from] in *; [|exact H].
  destruct H as [[H1 H2]|[(a & A1 & A2) A3]]; destruct F as [[F1 F2]|[(b & B1 & B2) B3]].
  - congruence.
  - rewrite H1 in B1. destruct B1.
  - rewrite F1 in A1. destruct A1.
  - pose proof (A3 b B1). pose proof (B3 a A1). lra.
Qed.

Section Channels.
  Variable v : env.
  Variable c : comp.
  Hypothesis Hspins : spins_match v.
  Hypothesis HJ : spin_matches (particle_A (c_pdg c)) (c_twoJ c).
  Hypothesis Hrange : forall f s Pa, In (f, (s, Pa)) (v_frags v) ->
    (0 <= particle_Z (c_pdg c) - particle_Z f <= 999)%Z /\ (0 <= particle_A (c_pdg c) - particle_A f <= 999)%Z.

  Lemma level_width_spec fr top ds lev w : top_of v c fr top -> v_scheme v (left_over c fr) = Some ds -> In lev (s_levels ds) -> rl_E lev < top ->
    level_width v c fr lev = Ok w -> width_to_level v c fr top lev w.
  Proof.
    destruct Hspins as [HS1 HS2]. destruct HJ as [J0 J1]. intros HT Hds Hl L H. destruct (HS1 _ _ _ Hds Hl) as [L0 L1].
    destruct fr as [[[f s] Pa]|]; cbn [top_of level_width width_to_level left_over] in *.
    - destruct HT as (Hf & HM & Hp & _). destruct (HS2 _ _ _ Hf) as [s0 s1]. destruct (Hrange _ _ _ Hf) as [RZ RA].
      destruct (C21_decodes _ _ RZ RA) as (_ & DA & _). rewrite DA in L1. unfold fragment_discrete_width in H. rewrite HM in H. cbn [bind] in H.
      destruct (Rle_dec top (rl_E lev)) as [C|_]; [lra|]. injection H as <-.
      exists (discrete_terms (c_twoJ c) (c_par c) (rl_twoJ lev) (rl_par lev) s Pa). split; [apply nodup_discrete_terms|]. split.
      + intros [tj l]. apply in_discrete_terms; try assumption. rewrite !Z.even_add in *. rewrite Z.even_sub in L1.
        destruct (Z.even (c_twoJ c)), (Z.even (rl_twoJ lev)), (Z.even s), (Z.even (particle_A (c_pdg c))), (Z.even (particle_A f)); try reflexivity; discriminate.
      + f_equal. apply map_ext. intros p. unfold norm_rho, unit_of_width, fragment_final. unfold Rdiv. ring.
    - subst top. injection H as <-. unfold gamma_discrete_width. destruct (Rle_dec _ _) as [C|_]; [lra|].
      exists (multipolarities (c_twoJ c) (rl_twoJ lev)). split; [apply nodup_range1|]. split.
      + intros m. apply in_multipolarities; try assumption. rewrite !Z.even_add in *.
        destruct (Z.even (c_twoJ c)), (Z.even (rl_twoJ lev)), (Z.even (particle_A (c_pdg c))); try reflexivity; discriminate.
      + f_equal. apply map_ext. intros m. rewrite electric_eqb. unfold norm_rho, unit_of_width. unfold Rdiv. ring.
  Qed.

  Lemma table_spec fr top E0 E : top_of v c fr top -> E0 <= E <= top ->
    exists tb, table v c fr E0 E = Ok tb /\ continuum_states v c fr top E (map (fun j => (j_twoJ j, j_par j, j_w j)) tb).
  Proof.
    destruct Hspins as [HS1 HS2]. destruct HJ as [J0 J1]. intros HT HE. assert (TO : 0 < tiny_offset) by (unfold tiny_offset; lra).
    destruct fr as [[[f s] Pa]|]; cbn [top_of table continuum_states left_over] in *.
    - destruct HT as (Hf & HM & Hp & _). destruct (HS2 _ _ _ Hf) as [s0 s1]. unfold fragment_table. rewrite HM. cbn [bind].
      repeat (destruct (Rlt_dec _ _) as [C|_]; [exfalso; lra|]). eexists. split; [reflexivity|].
      exists (fragment_terms (c_twoJ c) (c_par c) s Pa (v_flmax v)). split; [apply nodup_continuum_l|]. split.
      + intros. apply in_fragment_terms; assumption.
      + rewrite map_map. apply map_ext. intros [[[l tj] Jf] P]. cbn [j_twoJ j_par j_w]. f_equal. unfold norm_rho, unit_of_width, fragment_final. unfold Rdiv. ring.
    - subst top. unfold gamma_table. repeat (destruct (Rlt_dec _ _) as [C|_]; [exfalso; lra|]). eexists. split; [reflexivity|].
      exists (gamma_terms (c_twoJ c) (v_glmax v)). split; [apply nodup_gamma_terms|]. split.
      + intros. apply in_gamma_terms; assumption.
      + rewrite map_map. apply map_ext. intros [[m Jf] P]. cbn [j_twoJ j_par j_w]. f_equal. rewrite electric_eqb. unfold norm_rho, unit_of_width. unfold Rdiv. ring.
  Qed.

  Lemma chan_max_top fr top : top_of v c fr top -> chan_max v c fr = Ok top.
  Proof. destruct fr as [[[f s] Pa]|]; cbn [top_of chan_max]; [intros (_ & H & _); exact H|intros ->; reflexivity]. Qed.

  Lemma continuum_width_spec fr top E0 w : top_of v c fr top -> continuum_width v c fr E0 = Ok w ->
    exists g, w = v_integrate v g E0 top /\
      forall E, E0 <= E <= top -> exists rows, continuum_states v c fr top E rows /\ g E = sumR (map weight rows).
  Proof.
    intros HT H. unfold continuum_width in H. rewrite (chan_max_top _ _ HT) in H. cbn [bind] in H.
    destruct (Rlt_dec top E0); [discriminate|]. injection H as <-. exists (diff_width v c fr E0). split; [reflexivity|].
    intros E HE. destruct (table_spec fr top E0 E HT HE) as (tb & ET & HR). eexists. split; [exact HR|].
    unfold diff_width. rewrite ET, map_map. reflexivity.
  Qed.

  (** Each channel has the width it should have. *)
Theorem C65_widths cs x : exit_channels v c = Ok cs -> In x cs -> width_of v c (x_frag x) (x_dest x) (x_width x).
  Proof.
    intros H Hx. destruct (exit_channels_in _ _ _ _ H Hx) as (top & HT & HD). exists top. split; [apply open_top; exact HT|].
    rewrite left_final in HD. destruct (x_dest x) as [lev|E0].
    - destruct HD as (ds & D1 & D2 & D3 & D4). eapply level_width_spec; eassumption.
    - destruct HD as (_ & _ & D). eapply continuum_width_spec; eassumption.
  Qed.
End Channels.
Print Assumptions C65_widths.

Definition way (x : chan) : option (Z * Z * bool) * dest := (x_frag x, x_dest x).

Lemma level_ways v c fr top ls cs : level_channels v c fr top ls = Ok cs ->
  (forall i j a b, (i <= j)%nat -> nth_error ls i = Some a -> nth_error ls j = Some b -> rl_E a <= rl_E b) ->
  map way cs = map (fun lev => (fr, ToLevel lev)) (filter (fun lev => if Rlt_dec (rl_E lev) top then true else false) ls).
Proof.
  revert cs. induction ls as [|lev r IH]; intros cs H HS; cbn [level_channels] in H.
  - injection H as <-. reflexivity.
  - cbn [filter]. destruct (Rlt_dec (rl_E lev) top) as [L|L].
    + match type of H with bind ?b _ = _ => destruct b as [w|] end; cbn [bind] in H; [|discriminate].
      destruct (level_channels v c fr top r) as [cs'|]; cbn [bind] in H; [|discriminate]. injection H as <-.
      cbn [map way]. f_equal. apply IH; [reflexivity|]. intros i j a b Hij Hi Hj. apply (HS (S i) (S j) a b); [lia|exact Hi|exact Hj].
    + injection H as <-. cbn [map]. assert (G : Forall (fun l => ~ rl_E l < top) r).
      { apply Forall_forall. intros l Hl. apply In_nth_error in Hl. destruct Hl as [i Hi]. pose proof (HS O (S i) lev l ltac:(lia) eq_refl Hi). lra. }
      symmetry. clear -G. induction G as [|l r Hl _ IHG]; [reflexivity|]. cbn [filter]. destruct (Rlt_dec (rl_E l) top); [contradiction|exact IHG].
Qed.

(** The ways for one particle. *)
Definition ways_of (fr : option (Z * Z * bool)) (top : R) (ds : option rscheme) : list (option (Z * Z * bool) * dest) :=
  match ds with Some s => map (fun lev => (fr, ToLevel lev)) (filter (fun lev => if Rlt_dec (rl_E lev) top then true else false) (s_levels s)) | None => [] end
  ++ (if Rlt_dec (continuum_floor ds) top then [(fr, ToContinuum (continuum_floor ds))] else []).

Definition all_sorted (v : env) : Prop := forall pdg ds, v_scheme v pdg = Some ds -> levels_sorted (s_levels ds).

Lemma particle_ways v c fr top pdg cs : all_sorted v -> particle_channels v c fr top (v_scheme v pdg) = Ok cs ->
  map way cs = ways_of fr top (v_scheme v pdg).
Proof.
  intros Hs H. unfold particle_channels in H. match type of H with bind ?b _ = _ => destruct b as [cs1|] eqn:E1 end; cbn [bind] in H; [|discriminate].
  cbv zeta in H. unfold ways_of.
  assert (W1 : map way cs1 = match v_scheme v pdg with Some s => map (fun lev => (fr, ToLevel lev)) (filter (fun lev => if Rlt_dec (rl_E lev) top then true else false) (s_levels s)) | None => [] end).
  { destruct (v_scheme v pdg) as [s|] eqn:ES; [|injection E1 as <-; reflexivity]. eapply level_ways; [exact E1|]. exact (Hs _ _ ES). }
  rewrite <- W1. destruct (Rlt_dec _ top).
  - destruct (continuum_width _ _ _ _) as [w|]; cbn [bind] in H; [|discriminate]. injection H as <-. rewrite map_app. reflexivity.
  - injection H as <-. rewrite app_nil_r. reflexivity.
Qed.

Lemma ways_of_iff v c fr top fr' d : all_sorted v -> top_of v c fr top ->
  In (fr', d) (ways_of fr top (v_scheme v (left_over c fr))) <-> fr' = fr /\ destination v c fr d.
Proof.
  intros Hs HT. unfold ways_of.
  assert (UT : forall t, open_to v c fr t -> t = top).
  { intros t Ht. apply top_open in Ht. destruct fr as [[[f s] Pa]|]; cbn [top_of] in *; [|congruence]. destruct HT as (_ & A & _). destruct Ht as (_ & B & _). congruence. }
  rewrite in_app_iff. split.
  - intros [H|H].
    + destruct (v_scheme v (left_over c fr)) as [s|] eqn:ES; [|destruct H]. apply in_map_iff in H. destruct H as (lev & E & H).
      injection E as <- <-. apply filter_In in H. destruct H as [H1 H2]. destruct (Rlt_dec (rl_E lev) top) as [L|]; [|discriminate].
      split; [reflexivity|]. exists top. split; [apply open_top; exact HT|]. exists s. repeat split; assumption.
    + destruct (Rlt_dec _ top) as [L|]; [|destruct H]. destruct H as [E|[]]. injection E as <- <-. split; [reflexivity|].
      exists top. split; [apply open_top; exact HT|]. split; [|exact L]. apply floor_from. intros s ES. exact (Hs _ _ ES).
  - intros [-> (t & Ht & Hd)]. rewrite (UT t Ht) in Hd. clear t Ht. destruct d as [lev|E0].
    + left. destruct Hd as (ds & E & H1 & H2). rewrite E. apply in_map_iff. exists lev. split; [reflexivity|]. apply filter_In. split; [exact H1|].
      destruct (Rlt_dec (rl_E lev) top); [reflexivity|contradiction].
    + right. destruct Hd as [H1 H2]. apply from_floor in H1; [|intros s ES; exact (Hs _ _ ES)]. subst E0.
      destruct (Rlt_dec _ top); [left; reflexivity|contradiction].
Qed.

Lemma nodup_ways fr top ds : (forall s, ds = Some s -> NoDup (s_levels s)) -> NoDup (ways_of fr top ds).
Proof.
  intros H. unfold ways_of.
  assert (N1 : NoDup (match ds with Some s => map (fun lev => (fr, ToLevel lev)) (filter (fun lev => if Rlt_dec (rl_E lev) top then true else false) (s_levels s)) | None => [] end)).
  { destruct ds as [s|]; [|constructor]. apply FinFun.Injective_map_NoDup; [intros a b E; congruence|]. apply NoDup_filter, H. reflexivity. }
  destruct (Rlt_dec _ top); [|rewrite app_nil_r; exact N1].
  apply NoDup_rev in N1. rewrite <- (rev_involutive (_ ++ _)). apply NoDup_rev. rewrite rev_app_distr. cbn [rev app].
  constructor; [|exact N1]. intros C. apply in_rev in C. destruct ds as [s|]; [|destruct C]. apply in_map_iff in C. destruct C as (l & E & _). discriminate.
Qed.

Lemma nodup_app {A} (l m : list A) : NoDup l -> NoDup m -> (forall x, In x l -> In x m -> False) -> NoDup (l ++ m).
Proof.
  intros Hl Hm Hd. induction Hl as [|x l Hx _ IH]; [exact Hm|]. cbn [app]. constructor.
  - intros C. apply in_app_iff in C. destruct C as [C|C]; [exact (Hx C)|apply (Hd x); [left; reflexivity|exact C]].
  - apply IH. intros y Hy. apply Hd. right. exact Hy.
Qed.

Lemma fragment_ways v c frags cs : all_sorted v -> (forall y, In y frags -> In y (v_frags v)) -> fragment_channels v c frags = Ok cs ->
  (forall fr d, In (fr, d) (map way cs) <-> (exists f s Pa, In (f, (s, Pa)) frags /\ fr = Some (f, s, Pa)) /\ destination v c fr d) /\
  ((forall pdg ds, v_scheme v pdg = Some ds -> NoDup (s_levels ds)) -> NoDup frags -> NoDup (map way cs)).
Proof.
  intros Hs. revert cs. induction frags as [|[f [s Pa]] r IH]; intros cs Hi H; cbn [fragment_channels] in H.
  { injection H as <-. split; [|intros _ _; constructor]. intros fr d. split; [intros []|]. intros [(f & s & Pa & [] & _) _]. }
  destruct (separation_ZA _ _ _ f true) as [Sa|] eqn:ES; cbn [bind] in H; [|discriminate]. cbv zeta in H.
  match type of H with bind ?b _ = _ => destruct b as [cs1|] eqn:E1 end; cbn [bind] in H; [|discriminate].
  destruct (fragment_channels v c r) as [cs2|] eqn:E2; cbn [bind] in H; [|discriminate]. injection H as <-.
  destruct (IH cs2 ltac:(intros y Hy; apply Hi; right; exact Hy) eq_refl) as [I1 I2].
  assert (EM : max_Exf v c f = Ok (c_Ex c - Sa)) by (unfold max_Exf, separation; rewrite ES; reflexivity).
  assert (W1 : forall fr d, In (fr, d) (map way cs1) <-> fr = Some (f, s, Pa) /\ destination v c fr d).
  { destruct (nan_separation _ _ _ f) eqn:EN.
    { injection E1 as <-. intros fr d. split; [intros []|]. intros [-> (t & Ht & _)]. apply top_open in Ht. destruct Ht as (_ & _ & _ & C). congruence. }
    destruct (Rle_dec (c_Ex c - Sa) 0) as [L|L].
    { injection E1 as <-. intros fr d. split; [intros []|]. intros [-> (t & Ht & _)]. apply top_open in Ht. destruct Ht as (_ & C & C' & _). rewrite EM in C. injection C as <-. lra. }
    assert (HT : top_of v c (Some (f, s, Pa)) (c_Ex c - Sa)).
    { cbn [top_of]. split; [apply Hi; left; reflexivity|]. split; [exact EM|]. split; [lra|exact EN]. }
    change (fragment_final (c_pdg c) f) with (left_over c (Some (f, s, Pa))) in E1.
    rewrite (particle_ways _ _ _ _ _ _ Hs E1). intros fr d. rewrite (ways_of_iff v c (Some (f, s, Pa)) _ fr d Hs HT).
    split; intros [-> D]; (split; [reflexivity|exact D]). }
  split.
  - intros fr d. rewrite map_app, in_app_iff, W1, I1. split.
    + intros [[-> D]|[(f' & s' & P' & H1 & H2) D]]; (split; [|exact D]).
      * exists f, s, Pa. split; [left; reflexivity|reflexivity].
      * exists f', s', P'. split; [right; exact H1|exact H2].
    + intros [(f' & s' & P' & [H1|H1] & H2) D].
      * left. injection H1 as -> -> ->. split; assumption.
      * right. split; [exists f', s', P'; split; assumption|exact D].
  - intros ND NF. rewrite map_app. apply NoDup_cons_iff in NF. destruct NF as [NF1 NF2]. apply nodup_app.
    + destruct (nan_separation _ _ _ f); [injection E1 as <-; constructor|]. destruct (Rle_dec _ 0); [injection E1 as <-; constructor|].
      rewrite (particle_ways _ _ _ _ _ _ Hs E1). apply nodup_ways. intros s0 E0. exact (ND _ _ E0).
    + apply I2; assumption.
    + intros [fr d] H1 H2. apply W1 in H1. destruct H1 as [-> _]. apply I1 in H2. destruct H2 as [(f' & s' & P' & H3 & H4) _].
      injection H4 as <- <- <-. exact (NF1 H3).
Qed.

(** The channels are exactly the destinations that energy allows, each once. *)
Theorem C65_channels v c cs : exit_channels v c = Ok cs -> all_sorted v ->
  (forall fr d, In (fr, d) (map (fun x => (x_frag x, x_dest x)) cs) <-> destination v c fr d) /\
  ((forall pdg ds, v_scheme v pdg = Some ds -> NoDup (s_levels ds)) -> NoDup (v_frags v) -> NoDup (map (fun x => (x_frag x, x_dest x)) cs)).
Proof.
  intros H Hs. change (fun x => (x_frag x, x_dest x)) with way. unfold exit_channels in H.
  destruct (fragment_channels v c (v_frags v)) as [cs1|] eqn:E1; cbn [bind] in H; [|discriminate].
  destruct (particle_channels v c None (c_Ex c) (v_scheme v (c_pdg c))) as [cs2|] eqn:E2; cbn [bind] in H; [|discriminate]. injection H as <-.
  destruct (fragment_ways v c (v_frags v) cs1 Hs (fun y Hy => Hy) E1) as [F1 F2].
  change (c_pdg c) with (left_over c None) in E2. pose proof (particle_ways _ _ _ _ _ _ Hs E2) as G.
  assert (HT : top_of v c None (c_Ex c)) by reflexivity.
  assert (G1 : forall fr d, In (fr, d) (map way cs2) <-> fr = None /\ destination v c None d).
  { intros fr d. rewrite G. apply ways_of_iff; assumption. }
  rewrite map_app. split.
  - intros fr d. rewrite in_app_iff, F1, G1. split.
    + intros [[_ D]|[-> D]]; exact D.
    + intros D. destruct fr as [[[f s] Pa]|]; [|right; split; [reflexivity|exact D]]. left. split; [|exact D].
      destruct D as (t & (Hf & _) & _). exists f, s, Pa. split; [exact Hf|reflexivity].
  - intros ND NF. apply nodup_app; [apply F2; assumption| |].
    + rewrite G. apply nodup_ways. intros s E. exact (ND _ _ E).
    + intros [fr d] H1 H2. apply F1 in H1. apply G1 in H2. destruct H1 as [(f & s & Pa & _ & E) _]. destruct H2 as [-> _]. discriminate.
Qed.
Print Assumptions C65_channels.

(** The channel of a decay is drawn in proportion to the widths: it is the one in whose part
    of the unit interval, divided in proportion to the widths, the draw lies. A decay to a
    level leaves that level; one to the continuum leaves an energy between the highest
    level and the maximum, and a spin and parity drawn in proportion to the weights of the
    states at that energy. *)
Theorem C65_branching v nucleus Ex J P d fuel e r Exf Jf Pf cont :
  hf_decay v nucleus Ex J P d fuel = Ok (e, r, Exf, Jf, Pf, cont) ->
  nonneg_at v (pid nucleus) -> 0 <= Ex -> spins_match v -> spin_matches (particle_A (pid nucleus)) J -> 0 < h_chan d <= 1 -> 0 < h_jpi d <= 1 ->
  let c := mkcomp (pid nucleus) (chg nucleus) Ex J P in
  exists cs i x, exit_channels v c = Ok cs /\ nth_error cs i = Some x /\
    let total := sumR (map x_width cs) in
    let before := sumR (map x_width (firstn i cs)) in
    0 < total /\ before / total < h_chan d <= (before + x_width x) / total /\
    pid e = match x_frag x with None => 22%Z | Some (f, _, _) => f end /\ pid r = left_over c (x_frag x) /\
    match x_dest x with
    | ToLevel lev => cont = false /\ Exf = rl_E lev /\ Jf = rl_twoJ lev /\ Pf = rl_par lev
    | ToContinuum E0 => cont = true /\
        exists top, open_to v c (x_frag x) top /\ E0 <= Exf <= top /\
        exists rows k w, continuum_states v c (x_frag x) top Exf rows /\ nth_error rows k = Some (Jf, Pf, w) /\
          let rtotal := sumR (map weight rows) in
          let rbefore := sumR (map weight (firstn k rows)) in
          0 < rtotal /\ rbefore / rtotal < h_jpi d <= (rbefore + w) / rtotal
    end.
Proof.
  intros H Hv HEx HS HJ Hd1 Hd2. cbv zeta. pose proof (hf_decay_inv _ _ _ _ _ _ _ _ _ _ _ _ _ H) as I. cbv zeta in I.
  set (c := mkcomp (pid nucleus) (chg nucleus) Ex J P) in *.
  destruct I as (cs & x & EC & EN & HI & HC & HW & ES & EP & ->).
  apply prepare_inv in EP. destruct EP as (m & q & m0 & _ & _ & _ & _ & Pe & _ & _ & Pr & _ & _).
  assert (NN : nonneg (map x_width cs)).
  { apply Forall_map, Forall_forall. intros y Hy. apply channel_width_nonneg with v c; [split; [exact Hv|split; [exact HEx|apply HJ]]|]. eapply exit_channels_in; eassumption. }
  exists cs, (discrete (map x_width cs) (h_chan d)), x. split; [exact EC|]. split; [exact EN|].
  pose proof (map_nth_error x_width _ _ EN) as EW.
  destruct (C57_share _ _ _ _ NN HW EW Hd1) as (_ & _ & B). pose proof (proj1 B eq_refl) as B'. rewrite firstn_map in B'.
  split; [exact HW|]. split; [unfold Rdiv in *; lra|]. split; [exact Pe|]. split; [rewrite Pr; apply left_final|].
  destruct HC as (top & HT & HD). unfold sample_final in ES. destruct (x_dest x) as [lev|E0].
  { injection ES as <- <- <-. repeat split. }
  split; [reflexivity|]. exists top. split; [apply open_top; exact HT|]. rewrite (chan_max_top v c _ _ HT) in ES. cbn [bind] in ES.
  destruct (inverse_transform _ _ _ _ _ _) as [E'|] eqn:EI; cbn [bind] in ES; [|discriminate].
  assert (HR : E0 <= E' <= top) by (destruct HD as (_ & L & _); eapply inverse_transform_range; [|exact EI]; lra).
  destruct (table_spec v c HS HJ (x_frag x) top E0 E' HT HR) as (tb & ET & HRow). rewrite ET in ES. cbn [bind] in ES.
  destruct (Rle_dec _ 0) as [|LE]; [discriminate|]. destruct (nth_error tb _) as [j|] eqn:EJ; [|discriminate]. injection ES as <- <- <-.
  split; [exact HR|]. exists (map (fun j => (j_twoJ j, j_par j, j_w j)) tb), (discrete (map j_w tb) (h_jpi d)), (j_w j).
  split; [exact HRow|]. split; [apply (map_nth_error (fun j => (j_twoJ j, j_par j, j_w j)) _ _ EJ)|].
  rewrite firstn_map, !map_map. change (fun x0 : jpi => weight (j_twoJ x0, j_par x0, j_w x0)) with j_w.
  assert (N2 : nonneg (map j_w tb)) by (apply Forall_map; apply (table_nonneg v c (x_frag x) E0 E' tb); [split; [exact Hv|split; [exact HEx|apply HJ]]|exact (top_known _ _ _ _ HT)|pose proof (floor_nonneg v _ (final_pdg c x) Hv) as HF0; destruct HD as (HD & _); rewrite <- HD in HF0; lra|exact ET]).
  destruct (C57_share _ _ _ _ N2 ltac:(lra) (map_nth_error j_w _ _ EJ) Hd2) as (_ & _ & B2). pose proof (proj1 B2 eq_refl) as B3. rewrite firstn_map in B3.
  split; [lra|]. unfold Rdiv in *. lra.
Qed.
Print Assumptions C65_branching.
