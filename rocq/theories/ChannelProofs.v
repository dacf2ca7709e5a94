(** Lemmas about exit channels and single statistical decays. *)
From Coq Require Import List ZArith Reals Lra Lia Bool.
From Verif Require Import Base Pdg PdgThms Kin KinSpec KinProofs KinThms Sample SampleProofs Mass MassThms Decay DecaySpec DecayProofs.
Import ListNotations.
Local Open Scope R_scope.

(** ** What a channel in the list is like *)

(** The largest energy the final nucleus can have. *)
Definition top_of (v : env) (c : comp) (fr : option (Z * Z * bool)) (top : R) : Prop :=
  match fr with
  | None => top = c_Ex c
  | Some (f, s, Pa) => In (f, (s, Pa)) (v_frags v) /\ max_Exf v c f = Ok top /\ 0 < top /\
      nan_separation (v_mt v) (particle_Z (c_pdg c)) (particle_A (c_pdg c)) f = false
  end.

Definition level_width (v : env) (c : comp) (fr : option (Z * Z * bool)) (lev : rlevel) : res R :=
  match fr with
  | None => Ok (gamma_discrete_width v c lev)
  | Some (f, s, Pa) => fragment_discrete_width v c f s Pa lev
  end.

Definition channel_ok (v : env) (c : comp) (x : chan) : Prop :=
  exists top, top_of v c (x_frag x) top /\
  match x_dest x with
  | ToLevel lev => exists ds, v_scheme v (final_pdg c x) = Some ds /\ In lev (s_levels ds) /\ rl_E lev < top /\
      level_width v c (x_frag x) lev = Ok (x_width x)
  | ToContinuum Ec => Ec = continuum_floor (v_scheme v (final_pdg c x)) /\ Ec < top /\
      continuum_width v c (x_frag x) Ec = Ok (x_width x)
  end.

Lemma level_channels_in v c fr top ls cs x : level_channels v c fr top ls = Ok cs -> In x cs ->
  x_frag x = fr /\ exists lev, x_dest x = ToLevel lev /\ In lev ls /\ rl_E lev < top /\ level_width v c fr lev = Ok (x_width x).
Proof.
  revert cs. induction ls as [|lev r IH]; intros cs H Hx; cbn [level_channels] in H.
  - injection H as <-. destruct Hx.
  - destruct (Rlt_dec (rl_E lev) top) as [L|L]; [|injection H as <-; destruct Hx].
    change (match fr with None => Ok (gamma_discrete_width v c lev) | Some (f, two_s, Pa) => fragment_discrete_width v c f two_s Pa lev end)
      with (level_width v c fr lev) in H.
    destruct (level_width v c fr lev) as [w|] eqn:EW; cbn [bind] in H; [|discriminate].
    destruct (level_channels v c fr top r) as [cs'|] eqn:EC; cbn [bind] in H; [|discriminate].
    injection H as <-. destruct Hx as [<-|Hx].
    + split; [reflexivity|]. exists lev. cbn [x_dest x_width]. split; [reflexivity|]. split; [left; reflexivity|]. split; [exact L|exact EW].
    + destruct (IH cs' eq_refl Hx) as (A & lev' & B & C & D & E). split; [exact A|]. exists lev'. split; [exact B|].
      split; [right; exact C|]. split; assumption.
Qed.

Lemma particle_channels_in v c fr top pdg cs x :
  particle_channels v c fr top (v_scheme v pdg) = Ok cs -> In x cs ->
  x_frag x = fr /\
  match x_dest x with
  | ToLevel lev => exists ds, v_scheme v pdg = Some ds /\ In lev (s_levels ds) /\ rl_E lev < top /\
      level_width v c fr lev = Ok (x_width x)
  | ToContinuum Ec => Ec = continuum_floor (v_scheme v pdg) /\ Ec < top /\ continuum_width v c fr Ec = Ok (x_width x)
  end.
Proof.
  unfold particle_channels. intros H Hx.
  match type of H with bind ?b _ = _ => destruct b as [cs1|] eqn:E1 end; cbn [bind] in H; [|discriminate].
  cbv zeta in H.
  assert (L : In x cs1 -> x_frag x = fr /\
    match x_dest x with
    | ToLevel lev => exists ds, v_scheme v pdg = Some ds /\ In lev (s_levels ds) /\ rl_E lev < top /\ level_width v c fr lev = Ok (x_width x)
    | ToContinuum Ec => Ec = continuum_floor (v_scheme v pdg) /\ Ec < top /\ continuum_width v c fr Ec = Ok (x_width x)
    end).
  { intros Hi. destruct (v_scheme v pdg) as [ds|]; [|injection E1 as <-; destruct Hi].
    destruct (level_channels_in _ _ _ _ _ _ _ E1 Hi) as (A & lev & B & C & D & E). split; [exact A|]. rewrite B.
    exists ds. split; [reflexivity|]. split; [exact C|]. split; assumption. }
  destruct (Rlt_dec _ top) as [LT|LT]; [|injection H as <-; exact (L Hx)].
  destruct (continuum_width v c fr _) as [w|] eqn:EW; cbn [bind] in H; [|discriminate]. injection H as <-.
  apply in_app_iff in Hx. destruct Hx as [Hx|[<-|[]]]; [exact (L Hx)|]. cbn [x_frag x_dest x_width].
  split; [reflexivity|]. split; [reflexivity|]. split; [exact LT|exact EW].
Qed.

Lemma fragment_channels_in v c frags cs x : (forall y, In y frags -> In y (v_frags v)) ->
  fragment_channels v c frags = Ok cs -> In x cs -> channel_ok v c x /\ x_frag x <> None.
Proof.
  revert cs. induction frags as [|[f [s Pa]] r IH]; intros cs Hs H Hx; cbn [fragment_channels] in H.
  - injection H as <-. destruct Hx.
  - destruct (separation_ZA _ _ _ f true) as [Sa|] eqn:ES; cbn [bind] in H; [|discriminate]. cbv zeta in H.
    match type of H with bind ?b _ = _ => destruct b as [cs1|] eqn:E1 end; cbn [bind] in H; [|discriminate].
    destruct (fragment_channels v c r) as [cs2|] eqn:E2; cbn [bind] in H; [|discriminate]. injection H as <-.
    apply in_app_iff in Hx. destruct Hx as [Hx|Hx].
    + destruct (nan_separation _ _ _ f) eqn:EN; [injection E1 as <-; destruct Hx|].
      destruct (Rle_dec (c_Ex c - Sa) 0) as [L|L]; [injection E1 as <-; destruct Hx|].
      destruct (particle_channels_in _ _ _ _ _ _ _ E1 Hx) as [A B]. split; [|rewrite A; discriminate].
      exists (c_Ex c - Sa). split.
      * rewrite A. unfold top_of, max_Exf, separation. rewrite ES. cbn [bind]. split; [apply Hs; left; reflexivity|].
        split; [reflexivity|]. split; [lra|exact EN].
      * unfold final_pdg. rewrite A. exact B.
    + apply (IH cs2); [intros y Hy; apply Hs; right; exact Hy|reflexivity|exact Hx].
Qed.

Lemma exit_channels_in v c cs x : exit_channels v c = Ok cs -> In x cs -> channel_ok v c x.
Proof.
  unfold exit_channels. intros H Hx. destruct (fragment_channels v c (v_frags v)) as [cs1|] eqn:E1; cbn [bind] in H; [|discriminate].
  destruct (particle_channels v c None (c_Ex c) (v_scheme v (c_pdg c))) as [cs2|] eqn:E2; cbn [bind] in H; [|discriminate].
  injection H as <-. apply in_app_iff in Hx. destruct Hx as [Hx|Hx].
  - apply (fragment_channels_in v c (v_frags v) cs1 x); [intros y Hy; exact Hy|exact E1|exact Hx].
  - destruct (particle_channels_in _ _ _ _ _ _ _ E2 Hx) as [A B]. exists (c_Ex c). split; [rewrite A; reflexivity|].
    unfold final_pdg. rewrite A. exact B.
Qed.

(** ** No negative widths *)

Definition good_comp (v : env) (c : comp) : Prop := nonneg_at v (c_pdg c) /\ 0 <= c_Ex c /\ (0 <= c_twoJ c)%Z.
Definition known (v : env) (fr : option (Z * Z * bool)) : Prop :=
  match fr with None => True | Some (f, s, Pa) => In (f, (s, Pa)) (v_frags v) end.
Lemma top_known v c fr top : top_of v c fr top -> known v fr.
Proof. destruct fr as [[[f s] Pa]|]; cbn; [intros (H & _); exact H|trivial]. Qed.

Lemma norm_nonneg v c : good_comp v c -> 0 <= norm_rho v c.
Proof.
  intros ((H & _) & HE & HJ). unfold norm_rho. pose proof (H (c_Ex c) (c_twoJ c) (c_par c) HE HJ) as R.
  set (r := v_rho v (c_pdg c) (c_Ex c) (c_twoJ c) (c_par c)) in *. pose proof PI_RGT_0.
  destruct (Req_dec r 0) as [->|N]; [rewrite Rmult_0_r, Rinv_0; lra|].
  apply Rlt_le, Rinv_0_lt_compat. assert (0 < 2 * PI) by lra. apply Rmult_lt_0_compat; lra.
Qed.

Lemma sum_map_nonneg {A} (f : A -> R) l : (forall x, In x l -> 0 <= f x) -> 0 <= sumR (map f l).
Proof. intros H. apply sumR_nonneg. unfold nonneg. apply Forall_map. apply Forall_forall. exact H. Qed.

Lemma multipolarity_pos Ji Jf m : In m (multipolarities Ji Jf) -> (1 <= m)%Z.
Proof. unfold multipolarities, range1. intros H. apply in_map_iff in H. destruct H as (i & <- & _). lia. Qed.

Lemma level_width_nonneg v c fr lev w : good_comp v c -> known v fr -> level_width v c fr lev = Ok w -> 0 <= w.
Proof.
  intros Hv Hk H. pose proof (norm_nonneg v c Hv) as HN. destruct Hv as ((H1 & H2 & H3 & H4 & H5 & H6) & _ & _). destruct fr as [[[f s] Pa]|]; cbn [level_width known] in *.
  - unfold fragment_discrete_width in H. destruct (max_Exf v c f) as [top|]; cbn [bind] in H; [|discriminate].
    destruct (Rle_dec top (rl_E lev)); injection H as <-; [lra|]. apply sum_map_nonneg. intros x _. apply Rmult_le_pos; [exact HN|apply (H3 _ _ _ _ _ _ Hk)].
  - injection H as <-. unfold gamma_discrete_width. destruct (Rle_dec _ _); [lra|]. apply sum_map_nonneg. intros x Hx. apply Rmult_le_pos; [exact HN|apply H4]. exact (multipolarity_pos _ _ _ Hx).
Qed.

Lemma continuum_l_spin Ji s : forall n P l, (forall l' tj Jf P', In (l', tj, Jf, P') (continuum_l Ji s P l n) -> (0 <= Jf)%Z).
Proof.
  induction n as [|n IH]; intros P l l' tj Jf P' H; cbn [continuum_l] in H; [destruct H|].
  apply in_app_or in H. destruct H as [H|H]; [|exact (IH _ _ _ _ _ _ H)].
  apply in_flat_map in H. destruct H as (j & _ & H). apply in_map_iff in H. destruct H as (J & E & H). injection E as _ _ <- _.
  apply in_range2 in H. lia.
Qed.

Lemma gamma_term_range Ji lmax m J P : In (m, J, P) (gamma_terms Ji lmax) -> (1 <= m)%Z /\ (0 <= J)%Z.
Proof.
  unfold gamma_terms. intros H. apply in_flat_map in H. destruct H as (m' & Hm & H). apply in_flat_map in H. destruct H as (J' & HJ & H).
  apply in_range2 in HJ. destruct HJ as [[HJ _] _]. pose proof (Z.abs_nonneg (Ji - 2 * m')). unfold range1 in Hm. apply in_map_iff in Hm. destruct Hm as (i & Hm & _).
  assert (m' = m /\ J' = J) as [<- <-] by (destruct H as [H|[H|[]]]; split; congruence). lia.
Qed.

Lemma fragment_row_nonneg v c f s Pa Ec E tb : good_comp v c -> In (f, (s, Pa)) (v_frags v) -> 0 <= E ->
  fragment_table v c f s Pa Ec E = Ok tb -> Forall (fun j => 0 <= j_w j) tb.
Proof.
  intros Hv Hk HE H. pose proof (norm_nonneg v c Hv) as HN. destruct Hv as ((H1 & H2 & H3 & H4 & H5 & H6) & _ & _). unfold fragment_table in H.
  destruct (max_Exf v c f) as [top|]; cbn [bind] in H; [|discriminate].
  repeat (destruct (Rlt_dec _ _); [try discriminate; injection H as <-; apply Forall_nil|]). cbv zeta in H. injection H as <-.
  apply Forall_map. apply Forall_forall. intros [[[l j] Jf] P] HI. cbn [j_w]. apply Rmult_le_pos.
  - apply Rmult_le_pos; [exact HN|apply (H3 _ _ _ _ _ _ Hk)].
  - apply (H2 _ _ _ _ _ _ Hk HE). exact (continuum_l_spin _ _ _ _ _ _ _ _ _ HI).
Qed.

Lemma gamma_row_nonneg v c Ec E tb : good_comp v c -> 0 <= E -> gamma_table v c Ec E = Ok tb -> Forall (fun j => 0 <= j_w j) tb.
Proof.
  intros Hv HE H. pose proof (norm_nonneg v c Hv) as HN. destruct Hv as ((H1 & H2 & H3 & H4 & H5 & H6) & _ & _). unfold gamma_table in H.
  repeat (destruct (Rlt_dec _ _); [try discriminate; injection H as <-; apply Forall_nil|]). injection H as <-.
  apply Forall_map. apply Forall_forall. intros [[m Jf] P] HI. apply gamma_term_range in HI. cbn [j_w]. apply Rmult_le_pos; [|apply H1; [exact HE|apply HI]].
  apply Rmult_le_pos; [exact HN|apply H4; apply HI].
Qed.

Lemma table_nonneg v c fr Ec E tb : good_comp v c -> known v fr -> 0 <= E -> table v c fr Ec E = Ok tb -> Forall (fun j => 0 <= j_w j) tb.
Proof. intros Hv Hk HE H. destruct fr as [[[f s] Pa]|]; [eapply fragment_row_nonneg|eapply gamma_row_nonneg]; eassumption. Qed.

Lemma diff_width_nonneg v c fr Ec E : good_comp v c -> known v fr -> 0 <= E -> 0 <= diff_width v c fr Ec E.
Proof.
  intros Hv Hk HE. unfold diff_width. destruct (table v c fr Ec E) as [tb|] eqn:ET; [|lra].
  apply sumR_nonneg. unfold nonneg. apply Forall_map. eapply table_nonneg; eassumption.
Qed.

Lemma floor_nonneg v n m : nonneg_at v n -> 0 <= continuum_floor (v_scheme v m).
Proof.
  intros (_ & _ & _ & _ & _ & H). unfold continuum_floor. destruct (v_scheme v m) as [s|] eqn:E; [|lra].
  destruct (rev (s_levels s)) as [|lev r] eqn:ER; [lra|]. apply (H m s lev E). apply in_rev. rewrite ER. left. reflexivity.
Qed.

Lemma channel_width_nonneg v c x : good_comp v c -> channel_ok v c x -> 0 <= x_width x.
Proof.
  intros Hv (top & HT & H). apply top_known in HT. destruct (x_dest x) as [lev|Ec].
  - destruct H as (ds & _ & _ & _ & H). eapply level_width_nonneg; eassumption.
  - destruct H as (HF & _ & H). unfold continuum_width in H. destruct (chan_max v c (x_frag x)) as [m|]; cbn [bind] in H; [|discriminate].
    destruct (Rlt_dec m Ec); [discriminate|]. injection H as <-. pose proof (floor_nonneg v _ (final_pdg c x) (proj1 Hv)) as HF0. rewrite <- HF in HF0.
    destruct Hv as ((H1 & H2 & H3 & H4 & H5 & H6) & HE & HJ). apply H5; [lra|]. intros y Hy. apply diff_width_nonneg; [|exact HT|lra]. repeat split; assumption.
Qed.

(** ** A decay taken apart *)

Lemma sample_final_range v c x d fuel Exf J P top : channel_ok v c x -> top_of v c (x_frag x) top ->
  sample_final v c x d fuel = Ok (Exf, J, P) -> Exf <= top.
Proof.
  intros (top' & HT & H) HT' HS.
  assert (ET : top' = top).
  { destruct (x_frag x) as [[[f s] Pa]|]; cbn [top_of] in *; [|congruence]. destruct HT as (_ & A & _). destruct HT' as (_ & B & _). congruence. }
  subst top'. unfold sample_final in HS. destruct (x_dest x) as [lev|Ec].
  - injection HS as <- _ _. destruct H as (_ & _ & _ & H & _). lra.
  - destruct H as (_ & H & _).
    assert (EM : chan_max v c (x_frag x) = Ok top).
    { destruct (x_frag x) as [[[f s] Pa]|]; cbn [top_of chan_max] in *; [apply HT|congruence]. }
    rewrite EM in HS. cbn [bind] in HS.
    destruct (inverse_transform _ Ec top _ _ fuel) as [E|] eqn:EI; cbn [bind] in HS; [|discriminate].
    assert (HE : E <= top).
    { unfold inverse_transform in EI. destruct (Req_EM_T _ 0); [injection EI as <-; lra|]. destruct (Req_EM_T _ 1); [injection EI as <-; lra|].
      apply bisect_spec in EI; lra. }
    destruct (table _ _ _ _ _) as [tb|]; cbn [bind] in HS; [|discriminate]. destruct (Rle_dec _ 0); [discriminate|].
    destruct (nth_error tb _) as [j|]; [|discriminate]. injection HS as <- _ _. exact HE.
Qed.

Lemma hf_decay_inv v nucleus Ex J P d fuel e r Exf Jf Pf cont :
  hf_decay v nucleus Ex J P d fuel = Ok (e, r, Exf, Jf, Pf, cont) ->
  let c := mkcomp (pid nucleus) (chg nucleus) Ex J P in
  exists cs x, exit_channels v c = Ok cs /\ nth_error cs (discrete (map x_width cs) (h_chan d)) = Some x /\ In x cs /\ channel_ok v c x /\
    0 < sumR (map x_width cs) /\
    sample_final v c x d fuel = Ok (Exf, Jf, Pf) /\
    prepare_products v c x nucleus Exf (h_cos d) (h_phi d) = Ok (e, r) /\
    cont = match x_dest x with ToContinuum _ => true | ToLevel _ => false end.
Proof.
  intros H c. unfold hf_decay in H. fold c in H. cbv zeta in H.
  destruct (exit_channels v c) as [cs|] eqn:EC; cbn [bind] in H; [|discriminate].
  destruct (Rle_dec _ 0) as [L|L]; [discriminate|].
  destruct (nth_error cs _) as [x|] eqn:EN; [|discriminate].
  destruct (sample_final v c x d fuel) as [[[E' J'] P']|] eqn:ES; cbn [bind] in H; [|discriminate].
  destruct (prepare_products _ _ _ _ _ _ _) as [[e' r']|] eqn:EP; cbn [bind] in H; [|discriminate].
  injection H as <- <- <- <- <- <-. exists cs, x. pose proof (nth_error_In _ _ EN) as HI.
  repeat split; try assumption; try reflexivity; [|lra]. eapply exit_channels_in; eassumption.
Qed.

Lemma boost_kind x y z p q : boost x y z p = Ok q -> same_kind p q.
Proof.
  unfold boost. destruct (get_beta2 x y z) as [b2|]; cbn [bind]; [|discriminate].
  destruct (Req_EM_T b2 0); intros H; injection H as <-; repeat split.
Qed.

Lemma decay_kind p0 p1 p2 ct phi q1 q2 : two_body_decay p0 p1 p2 ct phi = Ok (q1, q2) -> same_kind p1 q1 /\ same_kind p2 q2.
Proof.
  unfold two_body_decay. destruct (Rlt_dec _ _); [discriminate|]. cbv zeta.
  match goal with |- bind ?b _ = _ -> _ => destruct b as [x|e] eqn:E1 end; cbn [bind]; [|discriminate].
  match goal with |- bind ?b _ = _ -> _ => destruct b as [y|e] eqn:E2 end; cbn [bind]; [|discriminate].
  intros H. injection H as <- <-. apply boost_kind in E1. apply boost_kind in E2.
  unfold same_kind, set_p4 in *. cbn [pid mass chg] in *. split; assumption.
Qed.

Lemma prepare_inv v c x nucleus Exf uc up e r :
  prepare_products v c x nucleus Exf uc up = Ok (e, r) ->
  exists m q m0, particle_mass (v_mt v) (emitted_pdg x) = Ok m /\ particle_charge (emitted_pdg x) = Ok q /\
    ion_mass (v_mt v) (final_pdg c x) (c_q c - particle_Z (emitted_pdg x)) = Ok m0 /\
    two_body_decay nucleus (mkpart (emitted_pdg x) 0 0 0 0 m q)
      (particle3 (final_pdg c x) (m0 + Exf) (c_q c - particle_Z (emitted_pdg x)))
      (uniform (-1) 1 uc) (uniform 0 (2 * PI) up) = Ok (e, r) /\
    pid e = emitted_pdg x /\ mass e = m /\ chg e = q /\ pid r = final_pdg c x /\ mass r = m0 + Exf /\
    chg r = (c_q c - particle_Z (emitted_pdg x))%Z.
Proof.
  unfold prepare_products. destruct (particle_mass _ _) as [m|] eqn:EM; cbn [bind]; [|discriminate].
  unfold particle2. destruct (particle_charge _) as [q|] eqn:EQ; cbn [bind]; [|discriminate].
  cbv zeta. destruct (ion_mass _ _ _) as [m0|] eqn:EI; cbn [bind]; [|discriminate].
  intros H. exists m, q, m0. pose proof (decay_kind _ _ _ _ _ _ _ H) as ((A1 & A2 & A3) & (B1 & B2 & B3)).
  cbn [pid mass chg particle3] in *. repeat split; try assumption; try reflexivity; symmetry; assumption.
Qed.
