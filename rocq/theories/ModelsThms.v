(** Theorems about the statistical model with MARLEY's own nuclear models (Models.v): C75. *)
From Coq Require Import List ZArith Reals Lra Lia Bool.
From Verif Require Import Base Pdg PdgThms Kin KinSpec KinProofs KinThms Sample SampleProofs SampleThms Mass MassThms XReal
  Dens DensThms Strength StrengthThms Optical OpticalThms Quad QuadThms Cheb
  Decay DecaySpec DecayProofs ChannelProofs CascadeThms SelectThms DeexSpec DeexProofs DeexThms DeexCases Models.
Import ListNotations.
Local Open Scope R_scope.

(** ** C75: the decay of a nucleus with MARLEY's models *)

(** The masses the statistical model needs are in the table. *)
Definition masses_known (t : mtab) : Prop :=
  (forall f, In f (ELECTRON :: fragment_pdgs) -> exists m, particle_mass t f = Ok m) /\ particle_mass t PHOTON = Ok 0.

(** A nuclide to which the models apply, together with everything that one fragment leaves of
    it: not too heavy for the giant resonances, not too light, and with moderate shell
    corrections (DensThms.v). *)
Definition applicable (t : mtab) (n : Z) : Prop :=
  (3 <= particle_Z n)%Z /\ (particle_Z n + 3 <= particle_A n)%Z /\ (particle_A n <= 509)%Z /\
  moderate t (particle_Z n) (particle_A n) /\
  forall f, In f fragment_pdgs -> moderate t (particle_Z n - particle_Z f) (particle_A n - particle_A f).

(** A gamma can be emitted: there are no level data, or the energy is above the highest
    level, or some level lies below that a gamma can reach. *)
Definition gamma_open (v : env) (n : Z) (Ex : R) (J : Z) : Prop :=
  match v_scheme v n with
  | None => True
  | Some ds => (forall l, In l (s_levels ds) -> rl_E l < Ex) \/ exists l m, In l (s_levels ds) /\ rl_E l < Ex /\ (0 <= rl_twoJ l)%Z /\ gamma_allowed J (rl_twoJ l) m
  end.

Lemma part_known t f : (0 <= f)%Z -> (exists m, particle_mass t f = Ok m) -> exists m, part_at t f = Ok m.
Proof.
  intros Hf [m H]. unfold particle_mass in H. destruct (Z.ltb_spec f 0); [lia|]. destruct (part_at t f) as [x|]; [|discriminate]. exists x. reflexivity.
Qed.

Lemma fragment_facts f : In f fragment_pdgs -> (0 <= f)%Z /\ (0 <= particle_Z f <= 2)%Z /\ (1 <= particle_A f <= 4)%Z /\ (0 <= particle_A f - particle_Z f <= 2)%Z.
Proof. intros H. unfold fragment_pdgs in H. repeat (destruct H as [<-|H]; [vm_compute; intuition congruence|]). destruct H. Qed.

Lemma separation_known t Zn A f : masses_known t -> In f fragment_pdgs -> exists s, separation_ZA t Zn A f true = Ok s.
Proof.
  intros [H _] Hf. destruct (part_known t ELECTRON ltac:(discriminate) (H _ (or_introl eq_refl))) as [me Eme].
  destruct (part_known t f (proj1 (fragment_facts f Hf)) (H _ (or_intror Hf))) as [mf Emf].
  unfold separation_ZA. rewrite Eme, Emf. cbn [bind]. cbv zeta.
  assert (L : forall z a, exists m b, lookup_ZA t z a true = Ok (m, b)) by (intros; unfold lookup_ZA; destruct (assoc _ _); eexists; eexists; reflexivity).
  destruct (L Zn A) as (m1 & b1 & E1). destruct (L (Zn - particle_Z f)%Z (A - particle_A f)%Z) as (m2 & b2 & E2). rewrite E1. cbn [bind]. rewrite E2. cbn [bind].
  eexists. reflexivity.
Qed.

Lemma bfg_known t Zn A : masses_known t -> exists m, new_bfg t Zn A = Ok m.
Proof.
  intros Ht. unfold new_bfg. cbv zeta.
  assert (E : exists x, mass_excess t Zn A true = Ok x) by (unfold mass_excess, lookup_ZA; destruct (assoc _ _); eexists; reflexivity).
  destruct E as [x ->]. cbn [bind]. destruct (separation_known t Zn A NEUTRON Ht ltac:(left; reflexivity)) as [s ->]. eexists. reflexivity.
Qed.

Lemma own_rho_pos t n E J P : masses_known t -> (2 <= particle_A n)%Z -> moderate t (particle_Z n) (particle_A n) -> 0 <= E -> (0 <= J)%Z ->
  0 < own_rho t n E J P.
Proof.
  intros Ht HA HM HE HJ. unfold own_rho. destruct (bfg_known t (particle_Z n) (particle_A n) Ht) as [m Em]. rewrite Em.
  destruct (C67_positive _ _ _ _ NaN E Em HA HM HE) as (r & _ & _ & H). destruct (H J HJ) as (rJ & PJ & _ & HP). rewrite HP. lra.
Qed.

Lemma own_T_range H fuel t n K f j l s : 0 <= own_T H fuel t n K f j l s <= 1.
Proof.
  unfold own_T. cbv zeta. destruct (om_T _ _ _ _ _ _ _ _ _ _ _) as [s' r] eqn:E. cbn [snd]. destruct r as [T|]; [|lra].
  apply C69_bounds in E. lra.
Qed.

Lemma own_TX_pos n e l E : (0 < particle_Z n < particle_A n)%Z -> (particle_A n <= 509)%Z -> (1 <= l)%Z ->
  0 <= own_TX n e l E /\ (0 < E -> 0 < own_TX n e l E).
Proof.
  intros HZ HA Hl. set (m := new_slo (particle_Z n) (particle_A n)). set (ty := if e then Electric else Magnetic).
  assert (P : forall x, 0 < x -> exists T, slo_T m ty l x = Ok T /\ 0 < T).
  { intros x Hx. destruct (C68_positive (particle_Z n) (particle_A n) ty l x HZ HA Hl ltac:(unfold ty; destruct e; discriminate) Hx) as (f & T & _ & _ & ET & PT).
    exists T. split; assumption. }
  destruct (C68_zero m ty l Hl) as [Z0 ZN]. unfold own_TX. fold m ty. split.
  - destruct (Rtotal_order E 0) as [L|[->|L]].
    + rewrite <- (Ropp_involutive E), ZN. destruct (P (- E) ltac:(lra)) as (T & -> & PT). lra.
    + rewrite Z0. lra.
    + destruct (P E L) as (T & -> & PT). lra.
  - intros L. destruct (P E L) as (T & -> & PT). exact PT.
Qed.

Lemma left_codes n f : (3 <= particle_Z n)%Z -> (particle_Z n + 3 <= particle_A n)%Z -> (particle_A n <= 509)%Z -> In f fragment_pdgs ->
  nuclide (particle_Z n - particle_Z f) (particle_A n - particle_A f) /\
  particle_Z (fragment_final n f) = (particle_Z n - particle_Z f)%Z /\ particle_A (fragment_final n f) = (particle_A n - particle_A f)%Z.
Proof.
  intros H1 H2 H3 Hf. destruct (fragment_facts f Hf) as (_ & F1 & F2 & F3).
  assert (HN : nuclide (particle_Z n - particle_Z f) (particle_A n - particle_A f)) by (split; lia).
  split; [exact HN|]. unfold fragment_final. apply nuclide_decodes. exact HN.
Qed.

Section Own.
Context (H : Z -> R -> R -> option cpx) (fuel : nat) (t : mtab) (scheme : Z -> option rscheme) (frags : list (Z * (Z * bool))) (flmax glmax : Z).
Let v := own_env H fuel t scheme frags flmax glmax.

(** What is consulted is never negative, and densities and gamma transmission coefficients
    are positive. *)
Lemma own_regular n : env_ok v -> masses_known t -> applicable t n ->
  nonneg_at v n /\
  (forall E J P, 0 <= E -> (0 <= J)%Z -> 0 < v_rho v n E J P) /\
  (forall f s Pa E J P, In (f, (s, Pa)) (v_frags v) -> 0 <= E -> (0 <= J)%Z -> 0 < v_rho v (fragment_final n f) E J P) /\
  (forall e m E, (1 <= m)%Z -> 0 < E -> 0 < v_TX v n e m E).
Proof.
  intros Hv Ht (A1 & A2 & A3 & A4 & A5). pose proof Hv as (_ & HF & HS). rewrite Forall_forall in HF.
  assert (R1 : forall E J P, 0 <= E -> (0 <= J)%Z -> 0 < v_rho v n E J P).
  { intros E J P HE HJ. apply own_rho_pos; [exact Ht|lia|exact A4|exact HE|exact HJ]. }
  assert (R2 : forall f s Pa E J P, In (f, (s, Pa)) (v_frags v) -> 0 <= E -> (0 <= J)%Z -> 0 < v_rho v (fragment_final n f) E J P).
  { intros f s Pa E J P Hf HE HJ. pose proof (HF _ Hf) as Hf'. cbn [fst] in Hf'. destruct (left_codes n f A1 A2 A3 Hf') as (N1 & N2 & N3).
    pose proof (fragment_facts f Hf'). apply own_rho_pos; [exact Ht|rewrite N3; lia|rewrite N2, N3; apply A5; exact Hf'|exact HE|exact HJ]. }
  assert (R3 : forall e m E, (1 <= m)%Z -> 0 <= v_TX v n e m E /\ (0 < E -> 0 < v_TX v n e m E)).
  { intros e m E Hm. apply own_TX_pos; [lia|exact A3|exact Hm]. }
  split; [|split; [exact R1|split; [exact R2|]]].
  - repeat split.
    + intros E J P HE HJ. left. apply R1; assumption.
    + intros f s Pa E J P Hf HE HJ. left. eapply R2; eassumption.
    + intros. apply own_T_range.
    + intros e m E Hm. apply R3. exact Hm.
    + intros f a b Hab Hf. cbn [v own_env v_integrate]. unfold utils_integrate.
      destruct (C61_monotone 50 (fun _ => 0) f a b ltac:(lia) Hab Hf) as [M _].
      destruct (C61_linear 50 (fun _ => 0) (fun _ => 0) 0 0 a b) as [L _].
      assert (Z0 : num_integrate 50 (fun _ => 0) a b = 0).
      { rewrite (C61_inside 50 (fun _ => 0) (fun x => 0 * 0 + 0 * 0) a b Hab) by (intros; ring). rewrite L. ring. }
      lra.
    + intros pdg ds lev E Hl. destruct (HS _ _ E) as [_ HL]. rewrite Forall_forall in HL. apply HL. exact Hl.
  - intros e m E Hm. apply R3. exact Hm.
Qed.

Lemma particle_channels_ok c fr top ds : chan_max v c fr = Ok top -> exists cs, particle_channels v c fr top ds = Ok cs.
Proof.
  intros HT.
  assert (L : forall ls, exists cs, level_channels v c fr top ls = Ok cs).
  { induction ls as [|lev r [cs IH]]; cbn [level_channels]; [eexists; reflexivity|]. destruct (Rlt_dec (rl_E lev) top); [|eexists; reflexivity].
    destruct fr as [[[f s] Pa]|].
    - unfold fragment_discrete_width. cbn [chan_max] in HT. rewrite HT. cbn [bind]. destruct (Rle_dec top (rl_E lev)); cbn [bind]; rewrite IH; eexists; reflexivity.
    - cbn [bind]. rewrite IH. eexists; reflexivity. }
  assert (X : exists cs, match ds with Some s => level_channels v c fr top (s_levels s) | None => Ok [] end = Ok cs)
    by (destruct ds; [apply L|eexists; reflexivity]).
  destruct X as [cs E]. unfold particle_channels. rewrite E. cbn [bind]. cbv zeta.
  destruct (Rlt_dec (continuum_floor ds) top); [|eexists; reflexivity].
  unfold continuum_width. rewrite HT. cbn [bind]. destruct (Rlt_dec top (continuum_floor ds)); [exfalso; lra|]. cbn [bind]. eexists. reflexivity.
Qed.

(** The list of channels can be made, whatever the state. *)
Theorem C75_channels c : masses_known t -> Forall (fun x => In (fst x) fragment_pdgs) frags ->
  exists cs, exit_channels v c = Ok cs.
Proof.
  intros Ht HF. unfold exit_channels. cbn [v own_env v_frags].
  assert (FC : forall l, Forall (fun x => In (fst x) fragment_pdgs) l -> exists cs, fragment_channels v c l = Ok cs).
  { clear HF. intros l HF. induction HF as [|[f [s Pa]] r Hf _ [cs IH]]; cbn [fragment_channels]; [eexists; reflexivity|]. cbn [fst] in Hf.
    destruct (separation_known t (particle_Z (c_pdg c)) (particle_A (c_pdg c)) f Ht Hf) as [sa ES]. change (v_mt v) with t. rewrite ES. cbn [bind]. cbv zeta.
    assert (X : exists cs0, (if nan_separation t (particle_Z (c_pdg c)) (particle_A (c_pdg c)) f then Ok []
      else if Rle_dec (c_Ex c - sa) 0 then Ok []
      else particle_channels v c (Some (f, s, Pa)) (c_Ex c - sa) (v_scheme v (fragment_final (c_pdg c) f))) = Ok cs0).
    { destruct (nan_separation _ _ _ _); [eexists; reflexivity|]. destruct (Rle_dec _ 0); [eexists; reflexivity|].
      apply particle_channels_ok. cbn [chan_max]. unfold max_Exf, separation. change (v_mt v) with t. rewrite ES. reflexivity. }
    destruct X as [cs0 ->]. cbn [bind]. rewrite IH. eexists. reflexivity. }
  destruct (FC frags HF) as [cs ->]. cbn [bind].
  destruct (particle_channels_ok c None (c_Ex c) (v_scheme v (c_pdg c)) eq_refl) as [gs ->]. eexists. reflexivity.
Qed.

(** No width is negative, and if a gamma can be emitted the total is positive. *)
Theorem C75_widths c cs : env_ok v -> schemes_ok v -> masses_known t -> applicable t (c_pdg c) -> (1 <= glmax)%Z ->
  0 < c_Ex c -> (0 <= c_twoJ c)%Z -> exit_channels v c = Ok cs ->
  (forall x, In x cs -> 0 <= x_width x) /\ (gamma_open v (c_pdg c) (c_Ex c) (c_twoJ c) -> 0 < sumR (map x_width cs)).
Proof.
  intros Hv Hsc Ht Hn Hg HE HJ HC. destruct (own_regular _ Hv Ht Hn) as (R0 & R1 & R2 & R3).
  assert (GC : good_comp v c) by (split; [exact R0|split; [lra|exact HJ]]).
  assert (NN : forall x, In x cs -> 0 <= x_width x) by (intros x Hx; apply channel_width_nonneg with v c; [exact GC|eapply exit_channels_in; eassumption]).
  split; [exact NN|]. intros HG.
  assert (X : exists x, In x cs /\ 0 < x_width x); [|destruct X as (x & Hx & Px); exact (sum_in_pos x_width cs x NN Hx Px)].
  unfold exit_channels in HC. destruct (fragment_channels v c (v_frags v)) as [cs1|]; cbn [bind] in HC; [|discriminate].
  destruct (particle_channels v c None (c_Ex c) (v_scheme v (c_pdg c))) as [cs2|] eqn:EP; cbn [bind] in HC; [|discriminate]. injection HC as <-.
  assert (X : exists x, In x cs2 /\ 0 < x_width x); [|destruct X as (x & Hx & Px); exists x; split; [apply in_or_app; right; exact Hx|exact Px]].
  assert (NP : 0 < norm_rho v c).
  { unfold norm_rho. pose proof PI_RGT_0. apply Rinv_0_lt_compat. apply Rmult_lt_0_compat; [lra|]. apply R1; [lra|exact HJ]. }
  unfold particle_channels in EP.
  destruct (match v_scheme v (c_pdg c) with Some s => level_channels v c None (c_Ex c) (s_levels s) | None => Ok [] end) as [ls|] eqn:EL; cbn [bind] in EP; [|discriminate].
  cbv zeta in EP. set (Ec := continuum_floor (v_scheme v (c_pdg c))) in *.
  assert (CW : Ec < c_Ex c -> exists x, In x cs2 /\ 0 < x_width x).
  { intros L. destruct (Rlt_dec Ec (c_Ex c)); [|contradiction]. unfold continuum_width in EP. cbn [chan_max bind] in EP.
    destruct (Rlt_dec (c_Ex c) Ec); [exfalso; lra|]. cbn [bind] in EP. injection EP as <-.
    eexists. split; [apply in_or_app; right; left; reflexivity|]. cbn [x_width]. cbn [v own_env v_integrate]. unfold utils_integrate. fold v.
    assert (HEc : 0 <= Ec) by (apply floor_nonneg; exact Hv).
    assert (KN : known v None) by exact I.
    destruct (C61_monotone 50 (fun _ => 0) (diff_width v c None Ec) Ec (c_Ex c) ltac:(lia) ltac:(lra)) as [_ M].
    { intros y Hy. apply diff_width_nonneg; [exact GC|exact KN|lra]. }
    destruct (C61_linear 50 (fun _ => 0) (fun _ => 0) 0 0 Ec (c_Ex c)) as [LN _].
    assert (Z0 : num_integrate 50 (fun _ => 0) Ec (c_Ex c) = 0).
    { rewrite (C61_inside 50 (fun _ => 0) (fun x => 0 * 0 + 0 * 0) Ec (c_Ex c) ltac:(lra)) by (intros; ring). rewrite LN. ring. }
    rewrite <- Z0. apply M; [exact L|]. intros y Hy. unfold diff_width. cbn [table].
    assert (TB : exists tb, gamma_table v c Ec y = Ok tb /\ exists j, In j tb /\ 0 < j_w j).
    { assert (T0 : 0 < tiny_offset) by (unfold tiny_offset; lra).
      unfold gamma_table. destruct (Rlt_dec (c_Ex c) Ec); [lra|]. destruct (Rlt_dec y _); [lra|]. destruct (Rlt_dec _ y); [lra|].
      eexists. split; [reflexivity|].
      assert (X : In (1, c_twoJ c + 2, true)%Z (gamma_terms (c_twoJ c) (v_glmax v))).
      { apply in_gamma_terms; [exact HJ|]. split; [cbn; lia|]. unfold gamma_allowed, triangle. repeat split; try lia.
        rewrite !Z.even_add. destruct (Z.even (c_twoJ c)); reflexivity. }
      eexists. split; [refine (proj2 (in_map_iff _ _ _) (ex_intro _ _ (conj eq_refl X)))|]. cbn [j_w].
      apply Rmult_lt_0_compat; [|apply R1; [lra|lia]]. apply Rmult_lt_0_compat; [exact NP|]. apply R3; [lia|lra]. }
    destruct TB as (tb & ET & j & Hj & Pj). rewrite ET.
    pose proof (table_nonneg v c None Ec y tb GC KN ltac:(lra) ET) as TN. rewrite Forall_forall in TN.
    exact (sum_in_pos j_w tb j TN Hj Pj). }
  unfold gamma_open in HG. destruct (v_scheme v (c_pdg c)) as [ds|] eqn:ED.
  - destruct HG as [HG|(lev & m & HI & LT & HJf & GA)].
    + apply CW. unfold Ec, continuum_floor. destruct (rev (s_levels ds)) as [|lev r] eqn:ER; [exact HE|]. apply HG. apply in_rev. rewrite ER. left. reflexivity.
    + assert (LC : forall l cs', levels_sorted l -> In lev l -> level_channels v c None (c_Ex c) l = Ok cs' ->
                exists x, In x cs' /\ x_width x = gamma_discrete_width v c lev).
      { induction l as [|a l IH]; intros cs' HS HIn HL; [destruct HIn|]. cbn [level_channels] in HL.
        assert (La : rl_E a < c_Ex c).
        { destruct (In_nth_error _ _ HIn) as [k Hk]. pose proof (HS 0%nat k a lev ltac:(lia) eq_refl Hk). lra. }
        destruct (Rlt_dec (rl_E a) (c_Ex c)); [|contradiction]. cbn [bind] in HL.
        destruct (level_channels v c None (c_Ex c) l) as [cs''|] eqn:EL2; cbn [bind] in HL; [|discriminate]. injection HL as <-.
        destruct HIn as [->|HIn]; [eexists; split; [left; reflexivity|reflexivity]|].
        destruct (IH cs'' ltac:(intros i j x y Hij Hx Hy; apply (HS (S i) (S j) x y ltac:(lia) Hx Hy)) HIn eq_refl) as (x & Hx & Ex').
        exists x. split; [right; exact Hx|exact Ex']. }
      destruct (LC (s_levels ds) ls (proj2 (Hsc _ _ ED)) HI EL) as (x & Hx & Ew).
      assert (Hx2 : In x cs2).
      { destruct (Rlt_dec Ec (c_Ex c)); [|injection EP as <-; exact Hx]. destruct (continuum_width v c None Ec); cbn [bind] in EP; [|discriminate].
        injection EP as <-. apply in_or_app. left. exact Hx. }
      exists x. split; [exact Hx2|]. rewrite Ew. unfold gamma_discrete_width. destruct (Rle_dec (c_Ex c) (rl_E lev)); [lra|].
      assert (HI2 : In m (multipolarities (c_twoJ c) (rl_twoJ lev))).
      { apply in_multipolarities; [exact HJ|exact HJf| |exact GA]. destruct GA as (_ & _ & GA). rewrite Z.even_add, Z.even_mul in GA. cbn [Z.even] in GA. destruct (Z.even (c_twoJ c + rl_twoJ lev)); [reflexivity|discriminate]. }
      apply (sum_in_pos _ _ m).
      * intros y Hy. apply Rmult_le_pos; [lra|]. destruct R0 as (_ & _ & _ & R0 & _). apply R0. apply (multipolarity_pos _ _ _ Hy).
      * exact HI2.
      * apply Rmult_lt_0_compat; [exact NP|]. apply R3; [apply (multipolarity_pos _ _ _ HI2)|lra].
  - apply CW. exact HE.
Qed.

(** Not even with the lowest angular momenta can fragment [f], of doubled spin [s], leave
    nuclide [n] at [Ex] so that [Exf] remains: all transmission coefficients up to the
    limit on orbital angular momentum vanish. *)
Definition shut (n f s : Z) (Ex Exf : R) : Prop :=
  exists Sa, separation t n f true = Ok Sa /\ 0 <= Exf < Ex - Sa /\
  forall l j, (0 <= l <= flmax)%Z -> triangle j s (2 * l) -> own_T H fuel t (fragment_final n f) (Ex - Sa - Exf) f j l s = 0.

Lemma inverse_result F lo hi tol prob k : lo < hi -> 0 <= prob < 1 ->
  inverse_transform F lo hi tol prob k = Er NoFuel \/ exists x, inverse_transform F lo hi tol prob k = Ok x /\ lo <= x < hi /\ (0 < prob -> lo < x).
Proof.
  intros HL HP. unfold inverse_transform. destruct (Req_EM_T prob 0); [right; exists lo; split; [reflexivity|split; lra]|].
  destruct (Req_EM_T prob 1); [lra|].
  assert (B : forall g k a b, bisect F g prob tol a b k = Er NoFuel \/ exists x, bisect F g prob tol a b k = Ok x).
  { intros g. induction k0 as [|k0 IH]; intros a b; cbn [bisect]; [left; reflexivity|]. cbv zeta. destruct (Rlt_dec _ _); [|right; eexists; reflexivity].
    destruct (Req_EM_T _ _); [right; eexists; reflexivity|]. destruct (Rlt_dec _ _); apply IH. }
  destruct (B (F hi) k lo hi) as [E|[x E]]; [left; exact E|right]. exists x. split; [exact E|]. apply bisect_below in E; lra.
Qed.

Lemma parity_choice Pi Pa l : sign Pi = (sign (eqb (eqb Pi Pa) (Z.even l)) * sign Pa * minus_one_to l)%Z.
Proof. unfold sign, minus_one_to. destruct Pi, Pa, (Z.even l); reflexivity. Qed.

(** What happens in a channel that has been chosen. *)
Lemma sample_result c x d k : env_ok v -> masses_known t -> applicable t (c_pdg c) -> (1 <= glmax)%Z ->
  (forall f s Pa, In (f, (s, Pa)) frags -> (0 <= s)%Z) ->
  0 < c_Ex c -> (0 <= c_twoJ c)%Z -> 0 <= h_E d < 1 -> channel_ok v c x ->
  sample_final v c x d k = Er NoFuel \/
  (exists Exf Jf Pf, sample_final v c x d k = Ok (Exf, Jf, Pf)) \/
  (sample_final v c x d k = Er MarleyErr /\ exists f s Pa Exf, In (f, (s, Pa)) frags /\ shut (c_pdg c) f s (c_Ex c) Exf).
Proof.
  intros Hv Ht Hn Hg Hfs HE HJ Hd (top & HT & HD). destruct (own_regular _ Hv Ht Hn) as (R0 & R1 & R2 & R3).
  assert (GC : good_comp v c) by (split; [exact R0|split; [lra|exact HJ]]). pose proof (top_known _ _ _ _ HT) as KN.
  assert (NP : 0 < norm_rho v c).
  { unfold norm_rho. pose proof PI_RGT_0. apply Rinv_0_lt_compat. apply Rmult_lt_0_compat; [lra|]. apply R1; [lra|exact HJ]. }
  assert (T0 : 0 < tiny_offset) by (unfold tiny_offset; lra).
  unfold sample_final. destruct (x_dest x) as [lev|Ec]; [right; left; eexists; eexists; eexists; reflexivity|].
  destruct HD as (HFl & LT & _). assert (HEc : 0 <= Ec) by (rewrite HFl; exact (floor_nonneg v _ Hv)).
  assert (EM : chan_max v c (x_frag x) = Ok top).
  { destruct (x_frag x) as [[[f s] Pa]|]; cbn [top_of chan_max] in *; [apply HT|congruence]. }
  rewrite EM. cbn [bind].
  destruct (inverse_result (v_cdf v (diff_width v c (x_frag x) Ec) Ec top) Ec top (v_tol v) (h_E d) k LT Hd) as [EI|(Exf & EI & RE & _)]; rewrite EI; cbn [bind]; [left; reflexivity|].
  right. destruct (x_frag x) as [[[f s] Pa]|] eqn:EF; cbn [table top_of] in *.
  - destruct HT as (HI & EX & _).
    assert (ET : exists tb, fragment_table v c f s Pa Ec Exf = Ok tb /\
      forall l j Jf P', In (l, j, Jf, P') (fragment_terms (c_twoJ c) (c_par c) s Pa flmax) ->
        In (mkjpi Jf P' (norm_rho v c * v_T v (fragment_final (c_pdg c) f) (top - Exf) f j l s * v_rho v (fragment_final (c_pdg c) f) Exf Jf P')) tb).
    { unfold fragment_table. rewrite EX. cbn [bind]. destruct (Rlt_dec top Ec); [lra|]. destruct (Rlt_dec Exf _); [lra|]. destruct (Rlt_dec _ Exf); [lra|]. cbv zeta.
      eexists. split; [reflexivity|]. intros l j Jf P' HIn. apply in_map_iff. exists (l, j, Jf, P'). split; [reflexivity|exact HIn]. }
    destruct ET as (tb & ET & TT). rewrite ET. cbn [bind].
    pose proof (table_nonneg v c (Some (f, s, Pa)) Ec Exf tb GC KN ltac:(lra) ET) as TN. rewrite Forall_forall in TN.
    destruct (Rle_dec _ 0) as [L|L].
    + right. split; [reflexivity|]. exists f, s, Pa, Exf. split; [exact HI|]. unfold max_Exf in EX. change (v_mt v) with t in EX.
      destruct (separation t (c_pdg c) f true) as [Sa|] eqn:ES; cbn [bind] in EX; [|discriminate]. injection EX as EX.
      exists Sa. split; [exact ES|]. split; [lra|]. intros l j Hl (TJ & TE).
      assert (HIn : In (l, j, Z.abs (c_twoJ c - j), eqb (eqb (c_par c) Pa) (Z.even l))%Z (fragment_terms (c_twoJ c) (c_par c) s Pa flmax)).
      { apply in_fragment_terms; [exact HJ|eapply Hfs; exact HI|]. split; [exact Hl|]. pose proof (Hfs _ _ _ HI). unfold fragment_allowed, triangle. repeat split; try lia.
        - rewrite !Z.even_add, even_abs_sub, Z.even_add. destruct (Z.even (c_twoJ c)), (Z.even j); reflexivity.
        - exact TE.
        - apply parity_choice. }
      apply TT in HIn. pose proof (TN _ HIn) as W0. cbn [j_w] in W0.
      assert (PR : 0 < v_rho v (fragment_final (c_pdg c) f) Exf (Z.abs (c_twoJ c - j)) (eqb (eqb (c_par c) Pa) (Z.even l))) by (eapply R2; [exact HI|lra|lia]).
      assert (TP : 0 <= v_T v (fragment_final (c_pdg c) f) (top - Exf) f j l s) by apply own_T_range.
      rewrite EX. destruct TP as [TP|TP]; [exfalso|symmetry; exact TP].
      pose proof (sum_in_pos j_w tb _ TN HIn) as SP. cbn [j_w] in SP. apply (Rlt_not_le _ _ (SP (Rmult_lt_0_compat _ _ (Rmult_lt_0_compat _ _ NP TP) PR)) L).
    + left. destruct tb as [|j0 tb]; [exfalso; apply L; cbn; lra|]. destruct (nth_discrete_some j_w (j0 :: tb) (h_jpi d) ltac:(discriminate)) as [j EJ].
      rewrite EJ. eexists; eexists; eexists; reflexivity.
  - subst top. left.
    assert (TB : exists tb, gamma_table v c Ec Exf = Ok tb /\ exists j, In j tb /\ 0 < j_w j).
    { unfold gamma_table. destruct (Rlt_dec (c_Ex c) Ec); [lra|]. destruct (Rlt_dec Exf _); [lra|]. destruct (Rlt_dec _ Exf); [lra|].
      eexists. split; [reflexivity|].
      assert (X : In (1, c_twoJ c + 2, true)%Z (gamma_terms (c_twoJ c) (v_glmax v))).
      { apply in_gamma_terms; [exact HJ|]. split; [cbn; lia|]. unfold gamma_allowed, triangle. repeat split; try lia.
        rewrite !Z.even_add. destruct (Z.even (c_twoJ c)); reflexivity. }
      eexists. split; [refine (proj2 (in_map_iff _ _ _) (ex_intro _ _ (conj eq_refl X)))|]. cbn [j_w].
      apply Rmult_lt_0_compat; [|apply R1; [lra|lia]]. apply Rmult_lt_0_compat; [exact NP|]. apply R3; [lia|lra]. }
    destruct TB as (tb & ET & j & Hj & Pj).
    pose proof (table_nonneg v c None Ec Exf tb GC KN ltac:(lra) ET) as TN. rewrite Forall_forall in TN.
    pose proof (sum_in_pos j_w tb j TN Hj Pj) as SP. rewrite ET. cbn [bind]. destruct (Rle_dec _ 0); [exfalso; lra|].
    destruct tb as [|j0 tb]; [destruct Hj|]. destruct (nth_discrete_some j_w (j0 :: tb) (h_jpi d) ltac:(discriminate)) as [j' EJ].
    rewrite EJ. eexists; eexists; eexists; reflexivity.
Qed.

Lemma emitted_left nucleus Zn A x cs c : env_ok v -> applicable t (pid nucleus) -> nuclide Zn A -> pid nucleus = nucleus_pid Zn A -> c_pdg c = pid nucleus ->
  exit_channels v c = Ok cs -> In x cs -> nuclide (Zn - particle_Z (emitted_pdg x)) (A - particle_A (emitted_pdg x)).
Proof.
  intros Hv (A1 & A2 & A3 & _) HN Hp Ec EC HI. destruct (nuclide_decodes Zn A HN) as [DZ DA]. rewrite <- Hp in DZ, DA.
  pose proof (exit_channels_in _ _ _ _ EC HI) as (top & HT & _). unfold emitted_pdg. destruct (x_frag x) as [[[f s] Pa]|].
  - cbn [top_of] in HT. destruct HT as (HF & _). destruct Hv as (_ & HFr & _). rewrite Forall_forall in HFr. specialize (HFr _ HF). cbn [fst] in HFr.
    rewrite <- DZ, <- DA. apply (left_codes (pid nucleus) f A1 A2 A3 HFr).
  - change (nuclide (Zn - 0) (A - 0)). rewrite !Z.sub_0_r. exact HN.
Qed.

(** A statistical decay with these models fails in one way only: the energy left was drawn
    where the chosen fragment cannot be emitted at all. *)
Theorem C75_decay nucleus Ex J P d Zn A : env_ok v -> schemes_ok v -> masses_known t -> applicable t (pid nucleus) -> (1 <= glmax)%Z ->
  (forall f s Pa, In (f, (s, Pa)) frags -> (0 <= s)%Z) ->
  nuclide Zn A -> pid nucleus = nucleus_pid Zn A -> (chg nucleus <= Zn)%Z -> on_shell nucleus -> 0 < mass nucleus ->
  excited t nucleus Ex -> 0 < Ex -> (0 <= J)%Z -> gamma_open v (pid nucleus) Ex J -> unit_draw (h_cos d) -> 0 <= h_E d < 1 ->
  (forall k err, hf_decay v nucleus Ex J P d k = Er err ->
     err = NoFuel \/ (err = MarleyErr /\ exists f s Pa Exf, In (f, (s, Pa)) frags /\ shut (pid nucleus) f s Ex Exf)) /\
  (exists k, hf_decay v nucleus Ex J P d k <> Er NoFuel).
Proof.
  intros Hv Hsc Ht Hn Hg Hfs HN Hp Hq Ho HM HX HE HJ HG Hu Hd. set (c := mkcomp (pid nucleus) (chg nucleus) Ex J P).
  destruct (C75_channels c Ht ltac:(apply Hv)) as [cs EC].
  destruct (C75_widths c cs Hv Hsc Ht Hn Hg HE HJ EC) as [_ HS]. specialize (HS HG).
  assert (NE : cs <> []) by (intros ->; cbn in HS; lra).
  destruct (nth_discrete_some x_width cs (h_chan d) NE) as [x EN]. pose proof (nth_error_In _ _ EN) as HI.
  pose proof (exit_channels_in _ _ _ _ EC HI) as HK.
  assert (EQ : forall k, hf_decay v nucleus Ex J P d k = Er NoFuel /\ sample_final v c x d k = Er NoFuel \/
    (exists r, hf_decay v nucleus Ex J P d k = Ok r) \/
    (hf_decay v nucleus Ex J P d k = Er MarleyErr /\ exists f s Pa Exf, In (f, (s, Pa)) frags /\ shut (pid nucleus) f s Ex Exf)).
  { intros k. unfold hf_decay. fold c. rewrite EC. cbn [bind]. cbv zeta. destruct (Rle_dec _ 0); [lra|]. rewrite EN.
    destruct (sample_result c x d k Hv Ht Hn Hg Hfs HE HJ Hd HK) as [E|[(Exf & Jf & Pf & E)|(E & X)]]; rewrite E; cbn [bind].
    - left. split; reflexivity.
    - right. left.
      destruct (C32_feasible v nucleus Ex J P cs x d k Exf Jf Pf Zn A (h_cos d) (h_phi d) Hv (proj2 Ht) HN Hp Hq Ho HM HX EC HI E Hu
                  (emitted_left nucleus Zn A x cs c Hv Hn HN Hp eq_refl EC HI)) as (e & r & EP).
      unfold c in EP |- *. rewrite EP. eexists. reflexivity.
    - right. right. split; [reflexivity|exact X]. }
  split.
  - intros k err E. destruct (EQ k) as [[E1 _]|[[r E1]|[E1 X]]]; rewrite E1 in E; [left|discriminate|right]; injection E as <-; [reflexivity|]. split; [reflexivity|exact X].
  - assert (SF : exists k, sample_final v c x d k <> Er NoFuel).
    { unfold sample_final. destruct (x_dest x) as [lev|Ec]; [exists 0%nat; discriminate|]. destruct HK as (top & HT & HD).
      assert (EM : chan_max v c (x_frag x) = Ok top).
      { destruct (x_frag x) as [[[f s] Pa]|]; cbn [top_of chan_max] in *; [apply HT|congruence]. }
      rewrite EM. cbn [bind].
      destruct (C37_ends_always (v_cdf v (diff_width v c (x_frag x) Ec) Ec top) Ec top (v_tol v) (h_E d) ltac:(cbn; lra)) as (n & Exf & EI).
      exists (S n). rewrite EI. cbn [bind].
      assert (TE : forall e, table v c (x_frag x) Ec Exf = Er e -> e <> NoFuel).
      { intros e. destruct (x_frag x) as [[[f s] Pa]|]; cbn [table chan_max] in *.
        - unfold fragment_table. rewrite EM. cbn [bind]. repeat (destruct (Rlt_dec _ _); [congruence|]). discriminate.
        - unfold gamma_table. repeat (destruct (Rlt_dec _ _); [congruence|]). discriminate. }
      destruct (table v c (x_frag x) Ec Exf) as [tb|e] eqn:ET; cbn [bind]; [|intros X; injection X as ->; exact (TE _ eq_refl eq_refl)].
      destruct (Rle_dec _ 0); [discriminate|]. destruct (nth_error tb (discrete (map j_w tb) (h_jpi d))) as [j|]; [discriminate|discriminate]. }
    destruct SF as [k SF]. exists k. destruct (EQ k) as [[_ E1]|[[r E1]|[E1 X]]]; [contradiction|rewrite E1; discriminate|rewrite E1; discriminate].
Qed.

(** What is emitted obeys the selection rules, with nothing more to assume about densities,
    transmission coefficients or integrals. *)
Theorem C75_rules nucleus Ex J P d k e r Exf Jf Pf cont : hf_decay v nucleus Ex J P d k = Ok (e, r, Exf, Jf, Pf, cont) ->
  env_ok v -> masses_known t -> applicable t (pid nucleus) -> 0 <= Ex -> spins_match v -> spin_matches (particle_A (pid nucleus)) J ->
  0 < h_chan d <= 1 -> 0 < h_jpi d <= 1 ->
  ((pid e = 22%Z /\ pid r = pid nucleus /\ exists m, gamma_allowed J Jf m) \/
   (exists s Pa two_j l, In (pid e, (s, Pa)) frags /\
      particle_Z (pid r) = (particle_Z (pid nucleus) - particle_Z (pid e))%Z /\
      particle_A (pid r) = (particle_A (pid nucleus) - particle_A (pid e))%Z /\
      fragment_allowed J P Jf Pf s Pa two_j l)) /\
  spin_matches (particle_A (pid r)) Jf.
Proof.
  intros HD Hv Ht Hn HE HS HJ H1 H2. pose proof (hf_decay_emitted _ _ _ _ _ _ _ _ _ _ _ _ _ Hv HD) as [HI _].
  assert (RG : (0 <= particle_Z (pid e) <= 2 /\ 0 <= particle_A (pid e) <= 4)%Z).
  { unfold fragment_pdgs in HI. repeat (destruct HI as [<-|HI]; [vm_compute; repeat split; discriminate|]). destruct HI. }
  pose proof Hn as (A1 & A2 & A3 & _).
  apply (C31_decay v nucleus Ex J P d k e r Exf Jf Pf cont HD (proj1 (own_regular _ Hv Ht Hn)) HE HS HJ H1 H2); lia.
Qed.

(** A decay into the continuum leaves an energy above all levels, so that a gamma can
    follow. *)
Lemma continuum_open nucleus Ex J P d k e r Exf Jf Pf : env_ok v -> schemes_ok v -> 0 < h_E d < 1 ->
  hf_decay v nucleus Ex J P d k = Ok (e, r, Exf, Jf, Pf, true) -> 0 < Exf /\ (0 <= Jf)%Z /\ gamma_open v (pid r) Exf Jf.
Proof.
  intros Hv Hsc Hd HD. pose proof (hf_decay_inv _ _ _ _ _ _ _ _ _ _ _ _ _ HD) as I. cbv zeta in I.
  set (c := mkcomp (pid nucleus) (chg nucleus) Ex J P) in *. destruct I as (cs & x & EC & EN & HI & HC & HW & ES & EP & EK).
  apply prepare_inv in EP. destruct EP as (m & q & m0 & _ & _ & _ & _ & _ & _ & _ & Pr & _ & _).
  destruct HC as (top & HT & HC). unfold sample_final in ES. destruct (x_dest x) as [lev|Ec]; [discriminate|]. destruct HC as (HF & LT & _).
  assert (EM : chan_max v c (x_frag x) = Ok top).
  { destruct (x_frag x) as [[[f s] Pa]|]; cbn [top_of chan_max] in *; [apply HT|congruence]. }
  rewrite EM in ES. cbn [bind] in ES.
  destruct (inverse_result (v_cdf v (diff_width v c (x_frag x) Ec) Ec top) Ec top (v_tol v) (h_E d) k LT ltac:(lra)) as [EI|(y & EI & RE & SE)]; rewrite EI in ES; cbn [bind] in ES; [discriminate|].
  specialize (SE (proj1 Hd)).
  destruct (table v c (x_frag x) Ec y) as [tb|] eqn:ET; cbn [bind] in ES; [|discriminate]. destruct (Rle_dec _ 0); [discriminate|].
  destruct (nth_error tb (discrete (map j_w tb) (h_jpi d))) as [j|] eqn:EJ; [|discriminate].
  assert (y = Exf /\ j_twoJ j = Jf) as [<- <-] by (split; congruence).
  pose proof (floor_nonneg v (final_pdg c x) Hv) as HEc. rewrite <- HF in HEc. split; [lra|]. apply nth_error_In in EJ. split.
  - destruct (x_frag x) as [[[f s] Pa]|]; cbn [table] in ET.
    + unfold fragment_table in ET. cbn [chan_max] in EM. rewrite EM in ET. cbn [bind] in ET.
      repeat (destruct (Rlt_dec _ _); [try discriminate; injection ET as <-; destruct EJ|]). cbv zeta in ET. injection ET as <-.
      apply in_map_iff in EJ. destruct EJ as ([[[l tj] J'] P'] & <- & EJ). cbn [j_twoJ]. exact (continuum_l_spin _ _ _ _ _ _ _ _ _ EJ).
    + unfold gamma_table in ET. repeat (destruct (Rlt_dec _ _); [try discriminate; injection ET as <-; destruct EJ|]). injection ET as <-.
      apply in_map_iff in EJ. destruct EJ as ([[l J'] P'] & <- & EJ). cbn [j_twoJ]. apply (gamma_term_range _ _ _ _ _ EJ).
  - unfold gamma_open. rewrite Pr. destruct (v_scheme v (final_pdg c x)) as [ds|] eqn:ED; [|exact I]. left. intros l Hl.
    unfold continuum_floor in HF. destruct (rev (s_levels ds)) as [|a q'] eqn:ER.
    { apply in_rev in Hl. rewrite ER in Hl. destruct Hl. }
    assert (EL : s_levels ds = rev q' ++ [a]) by (rewrite <- (rev_involutive (s_levels ds)), ER; reflexivity).
    destruct (In_nth_error _ _ Hl) as [i Hi]. assert (Li : (i < length (s_levels ds))%nat) by (apply nth_error_Some; congruence).
    rewrite EL, app_length in Li. cbn [length] in Li.
    assert (Hk : nth_error (s_levels ds) (length (rev q')) = Some a) by (rewrite EL, nth_error_app2 by lia; rewrite Nat.sub_diag; reflexivity).
    pose proof (proj2 (Hsc _ _ ED) i _ l a (proj1 (Nat.lt_succ_r _ _) ltac:(rewrite Nat.add_1_r in Li; exact Li)) Hi Hk). lra.
Qed.

(** States that the statistical decays of one nucleus pass through. *)
Inductive passes (d : nat -> hdraw) : nat -> part -> R -> Z -> bool -> part -> R -> Z -> bool -> Prop :=
| passes_here k r E J P : passes d k r E J P r E J P
| passes_on k r E J P fl e r' E' J' P' r2 E2 J2 P2 : hf_decay v r E J P (d k) fl = Ok (e, r', E', J', P', true) ->
    passes d (S k) r' E' J' P' r2 E2 J2 P2 -> passes d k r E J P r2 E2 J2 P2.

(** As long as no nucleus outside the range of the models is reached, the whole sequence of
    statistical decays fails in no other way either. *)
Theorem C75_loop d : env_ok v -> schemes_ok v -> masses_known t -> (1 <= glmax)%Z ->
  (forall f s Pa, In (f, (s, Pa)) frags -> (0 <= s)%Z) -> hf_draws d -> (forall k, 0 < h_E (d k) < 1) ->
  forall k turn nucleus Ex J P err,
  is_nucleus nucleus -> excited t nucleus Ex -> (0 <= J)%Z -> gamma_open v (pid nucleus) Ex J ->
  (forall r E' J' P', passes d turn nucleus Ex J P r E' J' P' -> 1 / 1000 < E' -> applicable t (pid r)) ->
  hf_loop v nucleus Ex J P d turn k = Er err ->
  err = NoFuel \/ (err = MarleyErr /\ exists r E' J' P' f s Pa Exf, passes d turn nucleus Ex J P r E' J' P' /\
    In (f, (s, Pa)) frags /\ shut (pid r) f s E' Exf).
Proof.
  intros Hv Hsc Ht Hg Hfs Hd HdE. induction k as [|k IH]; intros turn nucleus Ex J P err Hnuc HX HJ HG HAp HL; [injection HL as <-; left; reflexivity|].
  cbn [hf_loop] in HL. destruct (Rlt_dec gs_cutoff Ex) as [L|L]; [|discriminate]. unfold gs_cutoff in L.
  destruct (Hd turn) as (D1 & D2 & D3 & D4 & D5). pose proof (HdE turn) as D6. unfold unit_draw in D3.
  pose proof (HAp _ _ _ _ (passes_here d turn nucleus Ex J P) L) as Hn.
  destruct Hnuc as (Zn & A & HN & Hp & Hq & Ho & HM).
  destruct (C75_decay nucleus Ex J P (d turn) Zn A Hv Hsc Ht Hn Hg Hfs HN Hp Hq Ho HM HX ltac:(lra) HJ HG D4 ltac:(lra)) as [CD _].
  destruct (hf_decay v nucleus Ex J P (d turn) (S k)) as [[[[[[e r1] E1] J1] P1] c1]|er] eqn:ED; cbn [bind] in HL.
  2: { injection HL as <-. destruct (CD _ _ ED) as [->|[-> (f & s & Pa & Exf & X)]]; [left; reflexivity|]. right. split; [reflexivity|].
       exists nucleus, Ex, J, P, f, s, Pa, Exf. split; [apply passes_here|exact X]. }
  destruct c1; [|discriminate].
  destruct (hf_loop v r1 E1 J1 P1 d (S turn) k) as [[[[r' E'] c'] es']|er] eqn:EL; cbn [bind] in HL; [discriminate|]. injection HL as <-.
  destruct (continuum_open _ _ _ _ _ _ _ _ _ _ _ Hv Hsc D6 ED) as (G1 & G2 & G3).
  assert (N1 : is_nucleus r1 /\ excited t r1 E1).
  { pose proof (hf_decay_inv _ _ _ _ _ _ _ _ _ _ _ _ _ ED) as I. cbv zeta in I. destruct I as (cs & x & EC & EN & HI & HC & _ & _ & EP & _).
    pose proof (emitted_left nucleus Zn A x cs (mkcomp (pid nucleus) (chg nucleus) Ex J P) Hv Hn HN Hp eq_refl EC HI) as NF.
    apply prepare_inv in EP. destruct EP as (m & q & m0 & _ & _ & _ & _ & Pe & _).
    pose proof Hv as (((me & Hme & _) & _) & _ & _).
    assert (CT : contains nucleus [e]).
    { destruct (nuclide_decodes Zn A HN) as [DZ DA]. unfold contains. rewrite !zsum_cons. cbn [zsum fold_right]. unfold neutrons, nucleons, protons.
      rewrite Pe, Hp, DZ, DA. destruct NF. lia. }
    destruct (hf_step _ _ _ _ _ _ _ _ _ _ _ _ _ Zn A me ED Hv D4 Hme HN Hp Hq Ho HM CT) as (S1 & S2 & S3 & S4 & S5 & S6 & S7 & S8 & S9 & S10 & S11).
    split; [exists (Zn - protons e)%Z, (A - nucleons e)%Z; exact (conj S6 (conj S7 (conj S8 (conj S3 S9))))|].
    destruct (ion_mass_nuclide (v_mt v) _ _ (chg r1) me (proj1 Hv) S6 S8 Hme) as [EI _].
    eexists. rewrite S7. split; [exact EI|exact S11]. }
  destruct N1 as [N1 N2].
  destruct (IH (S turn) r1 E1 J1 P1 er N1 N2 G2 G3) as [->|(-> & r & E' & J' & P' & f & s & Pa & Exf & PS & X)]; [|exact EL|left; reflexivity|].
  { intros r E' J' P' PS. apply (HAp r E' J' P'). eapply passes_on; [exact ED|exact PS]. }
  right. split; [reflexivity|]. exists r, E', J', P', f, s, Pa, Exf. split; [eapply passes_on; [exact ED|exact PS]|exact X].
Qed.
End Own.
Print Assumptions C75_rules.
Print Assumptions C75_loop.
Print Assumptions C75_channels.
Print Assumptions C75_widths.
Print Assumptions C75_decay.

(** ** A case: potassium-40 at 20 MeV with a table of particle masses only, four fragments and
    three levels *)

Definition est_mt : mtab := mkmt (t_part case_mt) [].
Definition est_env (H : Z -> R -> R -> option cpx) : env :=
  own_env H 5 est_mt (fun p => if Z.eqb p 1000190400 then Some demo_scheme else None)
    [(2112%Z, (1%Z, true)); (2212%Z, (1%Z, true)); (1000010020%Z, (2%Z, true)); (1000020040%Z, (0%Z, true))] 5 5.
Definition est_K40 : part := let m := mass_MeV est_mt 19 40 - 1 * (micro_amu * 548) + 20 in mkpart 1000190400 m 0 0 0 m 1.

Lemma est_known : masses_known est_mt.
Proof.
  split; [|cbv; f_equal; lra]. intros f Hf. unfold fragment_pdgs in Hf. repeat (destruct Hf as [<-|Hf]; [eexists; reflexivity|]). destruct Hf.
Qed.

Lemma est_ok H : env_ok (est_env H).
Proof.
  split; [|split].
  - destruct case_table as (T1 & T2 & _). split; [exact T1|]. split; [exact T2|]. intros Zn A m _ E. discriminate.
  - repeat constructor; unfold fragment_pdgs; cbn [In fst]; tauto.
  - intros pdg ds E. cbn [est_env own_env v_scheme] in E. destruct (Z.eqb_spec pdg 1000190400); [|discriminate]. injection E as <-. subst pdg.
    split; [reflexivity|]. pose proof demo_good as G. rewrite Forall_forall in *. intros l Hl. split; [apply G; exact Hl|].
    destruct Hl as [<-|[<-|[<-|[]]]]; cbn [rl_E]; lra.
Qed.

Lemma est_schemes H : schemes_ok (est_env H).
Proof.
  intros pdg ds E. cbn [est_env own_env v_scheme] in E. destruct (Z.eqb_spec pdg 1000190400); [|discriminate]. injection E as <-.
  split; [exact demo_downward|exact demo_sorted].
Qed.

Lemma est_applicable n : (3 <= particle_Z n)%Z -> (particle_Z n + 3 <= particle_A n)%Z -> (particle_A n <= 509)%Z -> applicable est_mt n.
Proof.
  intros H1 H2 H3. assert (M : forall z a, (0 < a)%Z -> moderate est_mt z a).
  { intros z a Ha. destruct (bfg_known est_mt z a est_known) as [m E]. eapply C67_estimated; [exact E|exact Ha|reflexivity]. }
  repeat (split; [assumption|]). split; [apply M; lia|]. intros f Hf. destruct (fragment_facts f Hf) as (_ & F1 & F2 & F3). apply M. lia.
Qed.

Lemma est_nucleus : is_nucleus est_K40 /\ excited est_mt est_K40 20.
Proof.
  pose proof (est_ok (fun _ _ _ => None)) as (T & _). change (v_mt (est_env (fun _ _ _ => None))) with est_mt in T.
  assert (HN : nuclide 19 40) by (split; lia).
  destruct (ion_mass_nuclide est_mt 19 40 1 (micro_amu * 548) T HN ltac:(lia) eq_refl) as [EI HP].
  split.
  - exists 19%Z, 40%Z. split; [exact HN|]. split; [reflexivity|]. split; [cbn [chg est_K40]; lia|].
    assert (P : 0 < mass_MeV est_mt 19 40 - 1 * (micro_amu * 548) + 20) by (apply Rplus_lt_0_compat; [exact HP|lra]).
    unfold est_K40. cbv zeta. revert P. generalize (mass_MeV est_mt 19 40 - 1 * (micro_amu * 548) + 20). intros m P.
    split; [|exact P]. unfold on_shell. cbn [mass en px py pz]. split; [lra|]. split; [lra|ring].
  - eexists. split; [exact EI|]. reflexivity.
Qed.

Lemma est_open H : gamma_open (est_env H) 1000190400 20 2.
Proof. left. intros l Hl. destruct Hl as [<-|[<-|[<-|[]]]]; cbn [rl_E]; lra. Qed.

Example C75_case H d : hf_draws (fun _ => d) -> 0 < h_E d < 1 ->
  exists k, hf_decay (est_env H) est_K40 20 2 true d k <> Er NoFuel /\
  forall err, hf_decay (est_env H) est_K40 20 2 true d k = Er err ->
    exists f s Exf, shut H 5 est_mt 5 1000190400 f s 20 Exf.
Proof.
  intros Hd D6. destruct (Hd 0%nat) as (_ & _ & _ & D4 & _). destruct est_nucleus as [(Zn & A & HN & Hp & Hq & Ho & HM) HX].
  assert (AP : applicable est_mt (pid est_K40)) by (apply (est_applicable 1000190400); vm_compute; discriminate).
  destruct (C75_decay H 5 est_mt (fun p => if Z.eqb p 1000190400 then Some demo_scheme else None) _ 5 5 est_K40 20 2 true d Zn A
    (est_ok H) (est_schemes H) est_known AP ltac:(lia)) as [D [k K]]; try assumption; try lia; try lra.
  - intros f s Pa HI. repeat (destruct HI as [HI|HI]; [assert (s = 1 \/ s = 2 \/ s = 0)%Z by (injection HI; lia); lia|]). destruct HI.
  - apply est_open.
  - exists k. split; [exact K|]. intros err E. destruct (D k err E) as [->|(_ & f & s & Pa & Exf & _ & X)]; [contradiction|]. exists f, s, Exf. exact X.
Qed.

(** If no fragments are considered the sequence of decays cannot fail at all. *)
Definition gammas_env (H : Z -> R -> R -> option cpx) : env :=
  own_env H 5 est_mt (fun p => if Z.eqb p 1000190400 then Some demo_scheme else None) [] 5 5.

Example C75_case_gammas H d k err : hf_draws d -> (forall k, 0 < h_E (d k) < 1) ->
  hf_loop (gammas_env H) est_K40 20 2 true d 0 k = Er err -> err = NoFuel.
Proof.
  intros Hd D6 E. destruct est_nucleus as [HN HX].
  assert (AP : applicable est_mt (pid est_K40)) by (apply (est_applicable 1000190400); vm_compute; discriminate).
  assert (PS : forall k r Ex J P r' E' J' P', passes H 5 est_mt (fun p => if Z.eqb p 1000190400 then Some demo_scheme else None) [] 5 5 d k r Ex J P r' E' J' P' -> pid r' = pid r).
  { induction 1 as [|k0 r Ex J P fl e r1 E1 J1 P1 r2 E2 J2 P2 HD _ IH]; [reflexivity|]. rewrite IH.
    pose proof (hf_decay_inv _ _ _ _ _ _ _ _ _ _ _ _ _ HD) as I. cbv zeta in I. destruct I as (cs & x & EC & EN & HI & HC & _ & _ & EP & _).
    apply prepare_inv in EP. destruct EP as (m & q & m0 & _ & _ & _ & _ & _ & _ & _ & Pr & _ & _). rewrite Pr.
    destruct HC as (top & HT & _). unfold final_pdg. destruct (x_frag x) as [[[f s] Pa]|]; [|reflexivity]. destruct HT as ([] & _). }
  destruct (C75_loop H 5 est_mt (fun p => if Z.eqb p 1000190400 then Some demo_scheme else None) [] 5 5 d) with (k := k) (turn := 0%nat) (nucleus := est_K40) (Ex := 20) (J := 2%Z) (P := true) (err := err)
    as [->|(_ & r & E' & J' & P' & f & s & Pa & Exf & _ & [] & _)]; try assumption; try lia; try reflexivity.
  - destruct (est_ok H) as (T & _ & S). split; [exact T|]. split; [constructor|exact S].
  - exact (est_schemes H).
  - exact est_known.
  - intros f s Pa [].
  - exact (est_open H).
  - intros r E' J' P' HP _. apply PS in HP. rewrite HP. exact AP.
Qed.
